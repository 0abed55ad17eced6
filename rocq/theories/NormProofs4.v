(** Exact results of the operations; splitting; absence of panics. *)
From Coq Require Import ZArith Sorting.Sorted.
From Verif Require Import Base ListFacts StrBytes NormModel NormSpec NormProofs NormProofs2 NormProofs3.

Definition hwide (cal : cals) : Prop := match cal with [] => True | ca :: _ => fst (snd ca) < snd (snd ca) end.

Lemma head_wide_show orig cal sh : head_wide (show orig cal sh) <-> hwide cal.
Proof.
  unfold head_wide; cbn [n_alignments show]. destruct cal as [|[c a] cal]; [tauto|].
  rewrite cbytes_cons; cbn [fst snd hwide]. pose proof (len_utf8_pos c). destruct (len_utf8 c); [lia|].
  cbn [repeat app]. tauto.
Qed.

Lemma transform_hwide orig cal sh dest k0 :
  wf_cal orig cal -> cal <> [] -> hwide cal ->
  transform (show orig cal sh) dest k0 = trange orig [] cal [] dest k0 sh.
Proof.
  intros W Hn Hw. destruct cal as [|[c a] cal]; [congruence|]. cbn [hwide snd fst] in Hw.
  destruct (transform_cases orig ((c, a) :: cal) sh dest k0 W) as [[-> E]|[(Ho & E & _)|(Ho & z & m & Ec & Z & Hne & E)]].
  - exfalso. apply wf_nil_all in W. inversion W; subst; cbn in *; subst; cbn in *; lia.
  - discriminate.
  - rewrite E. destruct z as [|x z].
    + cbn [app] in Ec. subst m; reflexivity.
    + exfalso. destruct Z as (_ & Z & _). cbn [app] in Ec. injection Ec as <- _. inversion Z as [|? ? H1 H2]; subst.
      unfold wide in H1; cbn [snd fst] in H1. lia.
Qed.

Lemma transform_empty_text orig sh k0 : transform (show orig [] sh) [] k0 = Ok (show orig [] sh).
Proof.
  destruct (transform_cases orig [] sh [] k0) as [[-> E]|[(Ho & E & G)|(Ho & z & m & Ec & Z & Hne & E)]].
  - split; constructor.
  - rewrite E; reflexivity.
  - exact G.
  - congruence.
Qed.

(** [trange] over the whole text. *)
Lemma trange_all orig cal dest k0 sh :
  trange orig [] cal [] dest k0 sh =
  match tloop (last_al (0, 0) (firstn k0 cal)) dest (skipn k0 cal) [] with
  | Ok new => Ok (show orig new sh)
  | Err e => Err e
  | Panic => Panic
  end.
Proof. unfold trange; cbn [app]. destruct (tloop _ _ _ _); [rewrite app_nil_r|..]; reflexivity. Qed.

(** ** filter *)
Lemma filter_none keep (l : cals) : Forall (fun ca => keep (fst ca) = false) l -> filter (fun ca => keep (fst ca)) l = [].
Proof. induction 1 as [|x l H _ IH]; cbn; [reflexivity|]. rewrite H; exact IH. Qed.

Lemma filter_loop_some keep cal : forall removed lc a prev rs,
  Forall (fun ca => keep (fst ca) = false) removed ->
  exists ts, filter_loop keep (ctext cal) (length removed) (Some lc) rs = (ts, rs) /\
    tloop prev ts ((lc, a) :: removed ++ cal) [] = Ok ((lc, a) :: filter (fun ca => keep (fst ca)) cal).
Proof.
  induction cal as [|[c x] cal IH]; intros removed lc a prev rs Hr; cbn [ctext map fst filter_loop filter].
  - eexists; split; [reflexivity|]. cbn [tloop].
    replace (0 <? - Z.of_nat (length removed))%Z with false by lia.
    cbn [app bind]. reflexivity.
  - destruct (keep c) eqn:Ek.
    + destruct (IH [] c x (last_al prev (firstn (S (length removed)) ((lc, a) :: removed ++ (c, x) :: cal))) rs) as (ts & E1 & E2); [constructor|].
      cbn [length] in E1. unfold ctext in E1. rewrite E1. eexists; split; [reflexivity|]. cbn [tloop].
      replace (0 <? - Z.of_nat (length removed))%Z with false by lia. cbn [app]. cbv zeta.
      replace (Z.to_nat (- - Z.of_nat (length removed))) with (length removed) by lia.
      assert (Es : skipn (S (length removed)) ((lc, a) :: removed ++ (c, x) :: cal) = (c, x) :: cal).
      { cbn [skipn]. rewrite skipn_app, skipn_all, Nat.sub_diag; reflexivity. }
      rewrite Es. cbn [app] in E2. rewrite E2. reflexivity.
    + destruct (IH (removed ++ [(c, x)]) lc a prev rs) as (ts & E1 & E2).
      { apply Forall_app; split; [exact Hr|]. constructor; [exact Ek|constructor]. }
      rewrite app_length in E1; cbn [length] in E1. unfold ctext in E1. rewrite E1.
      eexists; split; [reflexivity|]. rewrite <- app_assoc in E2. exact E2.
Qed.

Lemma filter_loop_none keep cal : forall removed,
  Forall (fun ca => keep (fst ca) = false) removed ->
  exists ts rs, filter_loop keep (ctext cal) (length removed) None 0 = (ts, rs) /\
    forall prev, tloop prev ts (skipn rs (removed ++ cal)) [] = Ok (filter (fun ca => keep (fst ca)) cal).
Proof.
  induction cal as [|[c x] cal IH]; intros removed Hr; cbn [ctext map fst filter_loop filter].
  - exists [], 0. split; reflexivity.
  - destruct (keep c) eqn:Ek.
    + exists (fst (filter_loop keep (map fst cal) 0 (Some c) (length removed))), (length removed).
      destruct (filter_loop_some keep cal [] c x (0,0) (length removed)) as (ts & E1 & _); [constructor|].
      cbn [length] in E1. unfold ctext in E1. split; [rewrite E1; reflexivity|].
      intros prev. destruct (filter_loop_some keep cal [] c x prev (length removed)) as (ts' & E1' & E2); [constructor|].
      cbn [length] in E1'. unfold ctext in E1'. rewrite E1'. cbn [fst].
      rewrite skipn_app, skipn_all, Nat.sub_diag. cbn [app skipn]. cbn [app] in E2. exact E2.
    + destruct (IH (removed ++ [(c, x)])) as (ts & rs & E1 & E2).
      { apply Forall_app; split; [exact Hr|]. constructor; [exact Ek|constructor]. }
      exists ts, rs. rewrite app_length in E1; cbn [length] in E1. split; [exact E1|].
      intros prev; specialize (E2 prev). rewrite <- app_assoc in E2; exact E2.
Qed.

Lemma filter_cal orig cal sh keep :
  wf_cal orig cal -> hwide cal ->
  n_filter (show orig cal sh) keep = Ok (show orig (filter (fun ca => keep (fst ca)) cal) sh).
Proof.
  intros W Hw. unfold n_filter; cbn [n_normalized show].
  destruct (filter_loop_none keep cal [] ltac:(constructor)) as (ts & rs & E1 & E2).
  cbn [length] in E1. rewrite E1. destruct cal as [|ca cal].
  - cbn in E1. injection E1 as <- <-. apply transform_empty_text.
  - rewrite transform_hwide by (auto; discriminate). rewrite trange_all. cbn [app] in E2. rewrite E2. reflexivity.
Qed.

(** ** map, case, clear *)
Lemma map_cal orig cal sh f :
  wf_cal orig cal -> hwide cal ->
  n_map (show orig cal sh) f = Ok (show orig (map (fun ca => (f (fst ca), snd ca)) cal) sh).
Proof.
  intros W Hw. unfold n_map; cbn [n_normalized show]. destruct cal as [|ca0 cal0]; [apply transform_empty_text|].
  set (cal := ca0 :: cal0) in *. rewrite transform_hwide by (auto; unfold cal; discriminate).
  rewrite trange_all. cbn [firstn skipn]. rewrite last_al_nil.
  assert (G : forall prev, tloop prev (map (fun c => (f c, 0%Z)) (ctext cal)) cal [] = Ok (map (fun ca => (f (fst ca), snd ca)) cal)).
  { clear. induction cal as [|[c a] cal IH]; intros prev; [reflexivity|].
    cbn [ctext map fst tloop Z.ltb Z.compare app]. cbv zeta. cbn [Z.opp Z.to_nat firstn skipn].
    unfold ctext in IH. rewrite IH. reflexivity. }
  rewrite G; reflexivity.
Qed.

Lemma tloop_case f cal : (forall c, f c <> []) -> forall prev,
  tloop prev (flat_map (fun c => first_replaces (f c)) (ctext cal)) cal []
  = Ok (flat_map (fun ca => map (fun c => (c, snd ca)) (f (fst ca))) cal).
Proof.
  intros Hf. induction cal as [|[c a] cal IH]; intros prev; [reflexivity|].
  cbn [ctext map fst flat_map snd]. destruct (f c) as [|c0 cs] eqn:Ef; [exfalso; eapply Hf; eauto|].
  cbn [first_replaces app tloop Z.ltb Z.compare]. cbv zeta. cbn [Z.opp Z.to_nat firstn skipn].
  rewrite last_al_cons, last_al_nil; cbn [snd].
  assert (G : forall d, tloop a (map (fun c => (c, 1%Z)) cs ++ d) cal [] =
              let! more := tloop a d cal [] in Ok (map (fun c => (c, a)) cs ++ more)).
  { clear. intros d. induction cs as [|x cs IH]; cbn [map app].
    - destruct (tloop a d cal []); reflexivity.
    - cbn [tloop Z.ltb Z.compare]. rewrite IH. destruct (tloop a d cal []); reflexivity. }
  rewrite G. unfold ctext in IH. rewrite IH. reflexivity.
Qed.

Lemma case_cal orig cal sh f :
  wf_cal orig cal -> hwide cal -> (forall c, f c <> []) ->
  n_case (show orig cal sh) f
  = Ok (show orig (flat_map (fun ca => map (fun c => (c, snd ca)) (f (fst ca))) cal) sh).
Proof.
  intros W Hw Hf. unfold n_case; cbn [n_normalized show]. destruct cal as [|ca0 cal0]; [apply transform_empty_text|].
  set (cal := ca0 :: cal0) in *. rewrite transform_hwide by (auto; unfold cal; discriminate).
  rewrite trange_all. cbn [firstn skipn]. rewrite tloop_case by exact Hf. reflexivity.
Qed.

Lemma clear_cal orig cal sh :
  wf_cal orig cal -> hwide cal -> n_clear (show orig cal sh) = Ok (show orig [] sh).
Proof.
  intros W Hw. unfold n_clear. destruct cal as [|ca cal]; [apply transform_empty_text|].
  rewrite transform_hwide by (auto; discriminate). rewrite trange_all. reflexivity.
Qed.

(** ** lrstrip *)
Lemma length_le_blen s : length s <= blen s.
Proof. induction s as [|c s IH]; cbn; [lia|]. pose proof (len_utf8_pos c); lia. Qed.

Lemma twc_spec w cal :
  exists l r, cal = l ++ r /\ length l = take_while_count w (ctext cal) /\ all_ws w l /\ no_ws_head w r.
Proof.
  induction cal as [|[c a] cal (l & r & -> & E & A & N)].
  - exists [], []. repeat split; constructor.
  - cbn [ctext map fst take_while_count]. destruct (w c) eqn:Ew.
    + exists ((c, a) :: l), r. repeat split; auto; [cbn; f_equal; exact E|]. constructor; auto.
    + exists [], ((c, a) :: l ++ r). repeat split; auto; constructor.
Qed.

Lemma strip_loop_skip L T count len p : forall i s,
  i + length p <= L -> strip_loop i L T count len (p ++ s) = strip_loop (i + length p) L T count len s.
Proof.
  induction p as [|c p IH]; intros i s H; cbn [app length] in *; [rewrite Nat.add_0_r; reflexivity|].
  cbn [strip_loop]. replace (i <? L) with true by lia. cbn [orb]. rewrite IH by lia. f_equal; lia.
Qed.

Lemma strip_loop_end L T count len s : forall i, count - T <= i -> strip_loop i L T count len s = [].
Proof.
  induction s as [|c s IH]; intros i H; cbn [strip_loop]; [reflexivity|].
  replace (count - T <=? i) with true by lia. rewrite Bool.orb_true_r. apply IH; lia.
Qed.

Lemma strip_loop_mid L T count len m : forall i r prev,
  L <= i -> i + length m = count - T -> count <= len ->
  tloop prev (strip_loop i L T count len (ctext (m ++ r))) (m ++ r) [] = Ok m.
Proof.
  induction m as [|[c a] m IH]; intros i r prev H1 H2 H3; cbn [length app] in *.
  - rewrite strip_loop_end by lia. reflexivity.
  - cbn [ctext map fst strip_loop]. replace (i <? L) with false by lia. replace (count - T <=? i) with false by lia.
    cbn [orb]. destruct (i =? len - T - 1) eqn:E.
    + assert (m = []) by (destruct m; [reflexivity|cbn in H2; lia]). subst m. cbn [length app map] in *.
      rewrite strip_loop_end by lia. cbn [tloop]. replace (0 <? - Z.of_nat T)%Z with false by lia.
      reflexivity.
    + cbn [tloop Z.ltb Z.compare app]. cbv zeta. cbn [Z.opp Z.to_nat firstn skipn].
      specialize (IH (i + 1) r (last_al prev [(c, a)]) ltac:(lia) ltac:(lia) H3). unfold ctext in IH. rewrite IH. reflexivity.
Qed.

Lemma lrstrip_cal orig cal sh w left right :
  wf_cal orig cal -> hwide cal ->
  exists l m r, cal = l ++ m ++ r /\
    all_ws w l /\ all_ws w r /\ (left = false -> l = []) /\ (right = false -> r = []) /\
    (left = true -> no_ws_head w m) /\ (right = true -> no_ws_last w m) /\
    n_lrstrip (show orig cal sh) w left right = Ok (show orig m sh).
Proof.
  intros W Hw. unfold n_lrstrip; cbn [n_normalized show]. cbv zeta.
  set (L := if left then take_while_count w (ctext cal) else 0).
  set (T := if right then take_while_count w (rev (ctext cal)) else 0).
  assert (HL : exists l r, cal = l ++ r /\ length l = L /\ all_ws w l /\ (left = true -> no_ws_head w r) /\ (left = false -> l = [])).
  { unfold L; destruct left.
    - destruct (twc_spec w cal) as (l & r & A & B & C & D). exists l, r; repeat split; auto; discriminate.
    - exists [], cal. repeat split; try constructor. discriminate. }
  assert (HT : exists l r, cal = l ++ r /\ length r = T /\ all_ws w r /\ (right = true -> no_ws_last w l) /\ (right = false -> r = [])).
  { unfold T; destruct right.
    - destruct (twc_spec w (rev cal)) as (l & r & A & B & C & D). exists (rev r), (rev l).
      split; [rewrite <- rev_app_distr, <- A, rev_involutive; reflexivity|].
      split; [rewrite rev_length, B; unfold ctext; rewrite map_rev; reflexivity|].
      split; [apply Forall_rev; exact C|].
      split; [intros _; unfold no_ws_last; rewrite rev_involutive; exact D|discriminate].
    - exists cal, []. rewrite app_nil_r. repeat split; try constructor. discriminate. }
  clearbody L T. destruct HL as (l & x & Ec & El & Wl & Nl & Fl). destruct HT as (y & r & Ec' & Er & Wr & Nr & Fr).
  (* the two runs either do not overlap or cover everything *)
  destruct (Nat.le_gt_cases (length l) (length y)) as [Hc|Hc].
  - destruct (app_prefix_cmp l x y r ltac:(congruence) Hc) as (m & -> & ->).
    assert (Hlen : length (ctext cal) = L + length m + T)
      by (rewrite length_ctext, Ec, !app_length; lia).
    assert (Hnlm : right = true -> no_ws_last w m).
    { intros Hr; specialize (Nr Hr). unfold no_ws_last in *. rewrite rev_app_distr in Nr.
      destruct (rev m) as [|z zs]; [exact I|]. exact Nr. }
    assert (Hnhm : left = true -> no_ws_head w m).
    { intros Hl; specialize (Nl Hl). destruct m as [|z zs]; [exact I|]. exact Nl. }
    exists l, m, r. split; [exact Ec|]. split; [exact Wl|]. split; [exact Wr|].
    split; [exact Fl|]. split; [exact Fr|]. split; [exact Hnhm|]. split; [exact Hnlm|].
    destruct ((0 <? L) || (0 <? T)) eqn:E0.
    + destruct cal as [|ca0 cal0] eqn:Ecal; [exfalso; cbn in Hlen; lia|]. rewrite <- Ecal in *.
      rewrite transform_hwide; [|exact W|rewrite Ecal; discriminate|exact Hw].
      rewrite trange_all.
      assert (Es : skipn L cal = m ++ r)
        by (rewrite Ec, <- El, skipn_app, skipn_all, Nat.sub_diag; reflexivity).
      rewrite Es.
      assert (Et : ctext cal = ctext l ++ ctext (m ++ r)) by (rewrite Ec, <- ctext_app; reflexivity).
      replace (strip_loop 0 L T (length (ctext cal)) (n_len (show orig cal sh)) (ctext cal))
        with (strip_loop 0 L T (length (ctext cal)) (n_len (show orig cal sh)) (ctext l ++ ctext (m ++ r)))
        by (rewrite <- Et; reflexivity).
      rewrite strip_loop_skip by (rewrite length_ctext; lia).
      rewrite strip_loop_mid; [reflexivity|rewrite length_ctext; lia| |].
      * rewrite Hlen, length_ctext. lia.
      * rewrite show_len. apply length_le_blen.
    + assert (l = []) by (destruct l; [reflexivity|cbn in El; lia]).
      assert (r = []) by (destruct r; [reflexivity|cbn in Er; lia]). subst l r.
      rewrite Ec. cbn [app]. rewrite app_nil_r. reflexivity.
  - assert (Hcomm : y ++ r = l ++ x) by congruence.
    destruct (app_prefix_cmp y r l x Hcomm ltac:(lia)) as (k & -> & ->).
    rewrite app_length in *. assert (Hk : k <> []) by (intros ->; cbn in Hc; lia).
    assert (left = true) as -> by (destruct left; [reflexivity|]; specialize (Fl eq_refl); apply app_eq_nil in Fl; tauto).
    assert (right = true) as -> by (destruct right; [reflexivity|]; specialize (Fr eq_refl); apply app_eq_nil in Fr; tauto).
    apply Forall_app in Wl, Wr. destruct Wl as [Wy Wk], Wr as [_ Wx].
    assert (x = []).
    { specialize (Nl eq_refl). destruct x as [|z x]; [reflexivity|]. cbn in Nl. inversion Wx; subst. congruence. }
    assert (y = []).
    { specialize (Nr eq_refl). unfold no_ws_last in Nr. destruct y as [|z y] using rev_ind; [reflexivity|].
      rewrite rev_app_distr in Nr. cbn in Nr. apply Forall_app in Wy; destruct Wy as [_ Wy]. inversion Wy; subst. congruence. }
    subst x y. cbn [app length] in *. rewrite app_nil_r in *. subst k.
    exists cal, [], []. rewrite !app_nil_r. split; [reflexivity|]. split; [exact Wk|]. split; [constructor|].
    split; [discriminate|]. split; [reflexivity|]. split; [intros; exact I|]. split; [intros; exact I|].
    destruct cal as [|ca0 cal0] eqn:Ecal; [congruence|]. rewrite <- Ecal in *.
    replace (_ || _) with true by (rewrite Ecal in El; cbn in El; lia).
    rewrite transform_hwide; [|exact W|rewrite Ecal; discriminate|exact Hw].
    rewrite trange_all, strip_loop_end by (rewrite length_ctext; lia). reflexivity.
Qed.

(** ** prepend, append *)
Lemma prepend_result orig c a r sh s :
  s <> [] ->
  n_prepend (show orig ((c, a) :: r) sh) s = Ok (show orig (map (fun x => (x, a)) s ++ (c, a) :: r) sh).
Proof.
  intros Hs. rewrite prepend_cal. unfold trange. destruct s as [|x s]; [congruence|].
  cbn [first_replaces app firstn skipn tloop Z.ltb Z.compare]. cbv zeta.
  cbn [Z.opp Z.to_nat firstn skipn]. rewrite last_al_cons, last_al_nil; cbn [snd].
  assert (E : map (fun c => (c, 1%Z)) s ++ [(c, 1%Z)] = map (fun c => (c, 1%Z)) (s ++ [c])) by (rewrite map_app; reflexivity).
  rewrite E, tloop_positive. cbn [bind app]. rewrite map_app. cbn [map app].
  rewrite <- app_assoc. reflexivity.
Qed.

Lemma append_result orig r c a sh s :
  n_append (show orig (r ++ [(c, a)]) sh) s = Ok (show orig (r ++ (c, a) :: map (fun x => (x, a)) s) sh).
Proof.
  rewrite append_cal. unfold trange. cbn [firstn skipn tloop Z.ltb Z.compare app]. cbv zeta.
  cbn [Z.opp Z.to_nat firstn skipn]. rewrite last_al_cons, last_al_nil; cbn [snd].
  rewrite tloop_positive. cbn [bind]. rewrite app_nil_r. reflexivity.
Qed.

(** ** replace *)
Lemma csize_text (t : cals) : list_sum (map csize t) = blen (ctext t).
Proof. induction t as [|[c a] t IH]; [reflexivity|]. cbn. unfold ctext in IH. rewrite <- IH. reflexivity. Qed.

Lemma replace_loop_segs orig sh content segs : forall done from cal,
  cal = done ++ from ++ concat (map fst segs) ->
  replace_loop (show orig cal sh) (seg_offsets csize (blen (ctext (done ++ from))) segs) content (blen (ctext done))
  = Ok (ctext (from ++ spec_replace content (last_al (0, 0) (done ++ from)) segs),
        cbytes (from ++ spec_replace content (last_al (0, 0) (done ++ from)) segs)).
Proof.
  induction segs as [|[t f] segs IH]; intros done from cal Ec; cbn [seg_offsets replace_loop spec_replace map concat fst] in *.
  - rewrite show_len. cbn [n_normalized n_alignments show]. rewrite Ec, !app_nil_r, ctext_app, cbytes_app.
    pose proof (str_get_app (ctext done) (ctext from) []) as G. rewrite app_nil_r in G.
    rewrite blen_app, G. cbn [of_option bind].
    pose proof (@slice_app unit _ (cbytes done) (cbytes from) [] (blen (ctext done)) (length (cbytes done ++ cbytes from))
                  ltac:(rewrite length_cbytes; reflexivity) ltac:(rewrite app_length; reflexivity)) as S.
    rewrite app_nil_r in S. rewrite S; reflexivity.
  - rewrite csize_text. destruct f.
    + cbn [n_normalized n_alignments show]. rewrite Ec.
      set (rest := concat (map fst segs)) in *.
      assert (G1 : str_get (ctext (done ++ from ++ t ++ rest)) (blen (ctext (done ++ from)))
                 (blen (ctext (done ++ from)) + blen (ctext t)) = Some (ctext t)).
      { rewrite app_assoc, ctext_app, (ctext_app t). apply str_get_app. }
      assert (G2 : str_get (ctext (done ++ from ++ t ++ rest)) (blen (ctext done)) (blen (ctext (done ++ from)))
                 = Some (ctext from)).
      { rewrite (ctext_app done), (ctext_app from), (ctext_app done). apply str_get_app'; [reflexivity|].
        rewrite blen_app; reflexivity. }
      rewrite G1; cbn [of_option bind]. rewrite G2; cbn [of_option bind].
      rewrite cbytes_app, (cbytes_app from).
      rewrite (slice_app (cbytes done) (cbytes from)) by (rewrite !length_cbytes, ?ctext_app, ?blen_app; reflexivity).
      cbn [bind]. rewrite <- cbytes_app, <- cbytes_app. rewrite firstn_all, skipn_all.
      pose proof (transform_loop_positive (done ++ from ++ t) rest content) as T. rewrite <- !app_assoc in T.
      replace (blen (ctext t) + blen (ctext (done ++ from))) with (blen (ctext (done ++ from ++ t)))
        by (rewrite !ctext_app, !blen_app; lia).
      rewrite T; cbn [bind].
      specialize (IH (done ++ from ++ t) [] (done ++ from ++ t ++ rest)).
      rewrite !app_nil_r in IH. cbn [app] in IH.
      replace (blen (ctext (done ++ from)) + blen (ctext t)) with (blen (ctext (done ++ from ++ t)))
        by (rewrite !ctext_app, !blen_app; lia).
      rewrite IH by (rewrite <- !app_assoc; reflexivity). cbn [bind].
      rewrite (app_assoc done from t), (last_al_app (0, 0) (done ++ from) t).
      set (L := last_al (last_al (0, 0) (done ++ from)) t).
      assert (Hc : ctext (map (fun c => (c, L)) content) = content)
        by (unfold ctext; rewrite map_map; cbn [fst]; apply map_id).
      rewrite !ctext_app, !cbytes_app, Hc. reflexivity.
    + specialize (IH done (from ++ t) cal ltac:(rewrite Ec, <- !app_assoc; reflexivity)).
      rewrite app_assoc in IH. rewrite (ctext_app (done ++ from)), blen_app in IH.
      rewrite IH. rewrite (last_al_app (0, 0) (done ++ from) t), <- !app_assoc. reflexivity.
Qed.

Lemma replace_cal orig sh content segs :
  n_replace (show orig (concat (map fst segs)) sh) (seg_offsets csize 0 segs) content
  = Ok (show orig (spec_replace content (0, 0) segs) sh).
Proof.
  unfold n_replace. pose proof (replace_loop_segs orig sh content segs [] [] _ eq_refl) as H.
  cbn [app ctext map blen] in H. rewrite H. reflexivity.
Qed.

(** Segments of the text lifted to the characters carrying ranges. *)
Lemma lift_segs segs : forall cal,
  ctext cal = concat (map fst segs) ->
  exists csegs, cal = concat (map fst csegs) /\
    map (fun s => (ctext (fst s), snd s)) csegs = segs /\
    forall b, seg_offsets csize b csegs = seg_offsets len_utf8 b segs.
Proof.
  induction segs as [|[t f] segs IH]; intros cal E; cbn [map concat fst] in E.
  - destruct cal; [|discriminate]. exists []; auto.
  - apply ctext_split in E; destruct E as (p & q & -> & Ep & Eq).
    destruct (IH q Eq) as (csegs & -> & Es & Eo). exists ((p, f) :: csegs).
    split; [reflexivity|]. split; [cbn [map fst snd]; rewrite Ep, Es; reflexivity|].
    intros b. cbn [seg_offsets]. rewrite csize_text, Ep.
    assert (El : list_sum (map len_utf8 t) = blen t).
    { clear. induction t as [|c t IH]; [reflexivity|]. cbn [map blen]. rewrite <- IH. reflexivity. }
    rewrite El, Eo. reflexivity.
Qed.

(** ** split *)
Section tiling.
  Context {A : Type} (size : A -> nat).

  (** Offsets of consecutive pieces. *)
  Fixpoint piece_offsets (b : nat) (ps : list (list A)) : list (nat * nat) :=
    match ps with
    | [] => []
    | t :: r => let e := b + list_sum (map size t) in (b, e) :: piece_offsets e r
    end.

  Fixpoint contig (l : nat * nat) (prev : bool) (ms : list ((nat * nat) * bool)) : list (nat * nat) :=
    match ms with
    | [] => [l]
    | (o, f) :: ms' => if Bool.eqb f prev then contig (fst l, snd o) f ms' else l :: contig o f ms'
    end.

  Lemma fold_contiguous_contig ms : forall prev l acc,
    rev (fold_contiguous ms prev (l :: acc)) = rev acc ++ contig l prev ms.
  Proof.
    induction ms as [|[o f] ms IH]; intros prev l acc; cbn [fold_contiguous contig]; [reflexivity|].
    destruct (Bool.eqb f prev); rewrite IH; [reflexivity|]. cbn [rev]. rewrite <- app_assoc; reflexivity.
  Qed.

  Lemma size_app (t u : list A) : list_sum (map size (t ++ u)) = list_sum (map size t) + list_sum (map size u).
  Proof. rewrite map_app, list_sum_app; reflexivity. Qed.

  Lemma spec_contiguous_glue f (segs : list (list A * bool)) t u :
    spec_contiguous ((t ++ u, f) :: segs) =
    match spec_contiguous ((u, f) :: segs) with w :: ws => (t ++ w) :: ws | [] => [t] end.
  Proof.
    destruct segs as [|[x h] segs]; [reflexivity|].
    assert (E : forall y, spec_contiguous ((y, f) :: (x, h) :: segs) =
      if Bool.eqb f h then match spec_contiguous ((x, h) :: segs) with w :: ws => (y ++ w) :: ws | [] => [y] end
      else y :: spec_contiguous ((x, h) :: segs)) by reflexivity.
    rewrite !E. generalize (spec_contiguous ((x, h) :: segs)); intros l.
    destruct (Bool.eqb f h); [|reflexivity]. destruct l; rewrite ?app_assoc; reflexivity.
  Qed.

  Lemma contig_spec segs : forall t f b,
    contig (b, b + list_sum (map size t)) f (seg_offsets size (b + list_sum (map size t)) segs)
    = piece_offsets b (spec_contiguous ((t, f) :: segs)).
  Proof.
    induction segs as [|[u g] segs IH]; intros t f b; [reflexivity|].
    cbn [seg_offsets contig]. 
    replace (spec_contiguous ((t, f) :: (u, g) :: segs)) with
      (if Bool.eqb f g then match spec_contiguous ((u, g) :: segs) with
                            | w :: ws => (t ++ w) :: ws | [] => [t] end
       else t :: spec_contiguous ((u, g) :: segs)) by reflexivity.
    destruct (Bool.eqb g f) eqn:E.
    - apply Bool.eqb_prop in E; subst g. rewrite Bool.eqb_reflx. cbn [fst snd].
      rewrite <- Nat.add_assoc, <- size_app. rewrite IH.
      rewrite spec_contiguous_glue. reflexivity.
    - replace (Bool.eqb f g) with false by (destruct f, g; cbn in *; congruence).
      cbn [piece_offsets]. f_equal. rewrite IH. reflexivity.
  Qed.

  Lemma split_contiguous segs b :
    rev (fold_contiguous (seg_offsets size b segs) false []) = piece_offsets b (spec_contiguous segs).
  Proof.
    destruct segs as [|[t f] segs]; [reflexivity|]. cbn [seg_offsets fold_contiguous].
    assert (E : (if Bool.eqb f false then match [] with l :: rest => (fst l, snd (b, b + list_sum (map size t))) :: rest | [] => [(b, b + list_sum (map size t))] end
               else [(b, b + list_sum (map size t))]) = [(b, b + list_sum (map size t))]) by (destruct f; reflexivity).
    cbv zeta. rewrite E, fold_contiguous_contig. cbn [rev app]. apply contig_spec.
  Qed.

  Fixpoint prevs (l : nat * nat) (prev : bool) (ms : list ((nat * nat) * bool)) : list (nat * nat) :=
    match ms with
    | [] => [l]
    | (o, f) :: ms' => if f && negb prev then prevs (fst l, snd o) f ms' else l :: prevs o f ms'
    end.

  Lemma fold_previous_prevs ms : forall prev l acc,
    rev (fold_previous ms prev (l :: acc)) = rev acc ++ prevs l prev ms.
  Proof.
    induction ms as [|[o f] ms IH]; intros prev l acc; cbn [fold_previous prevs]; [reflexivity|].
    destruct (f && negb prev); rewrite IH; [reflexivity|]. cbn [rev]. rewrite <- app_assoc; reflexivity.
  Qed.

  Lemma prevs_spec n : forall segs t f b, length segs <= n ->
    prevs (b, b + list_sum (map size t)) f (seg_offsets size (b + list_sum (map size t)) segs)
    = piece_offsets b (spec_previous ((t, f) :: segs)).
  Proof.
    induction n as [|n IH]; intros segs t f b Hn; (destruct segs as [|[u g] segs]; [destruct f; reflexivity|]);
      cbn [length] in Hn; [lia|].
    cbn [seg_offsets prevs]. destruct f.
    - rewrite Bool.andb_false_r. rewrite IH by lia. destruct g; reflexivity.
    - destruct g; cbn [andb negb].
      + cbn [fst snd]. rewrite <- Nat.add_assoc, <- size_app. rewrite IH by lia.
        cbn [spec_previous]. reflexivity.
      + rewrite IH by lia. reflexivity.
  Qed.

  Lemma split_previous segs b :
    rev (fold_previous (seg_offsets size b segs) false []) = piece_offsets b (spec_previous segs).
  Proof.
    destruct segs as [|[t f] segs]; [reflexivity|]. cbn [seg_offsets fold_previous].
    assert (E : (if f && negb false then match [] with l :: rest => (fst l, snd (b, b + list_sum (map size t))) :: rest | [] => [(b, b + list_sum (map size t))] end
               else [(b, b + list_sum (map size t))]) = [(b, b + list_sum (map size t))]) by (destruct f; reflexivity).
    cbv zeta. rewrite E, fold_previous_prevs. cbn [rev app]. eapply prevs_spec; eauto.
  Qed.

  Fixpoint nexts (ms : list ((nat * nat) * bool)) : list (nat * nat) :=
    match ms with
    | [] => []
    | (o, f) :: ms' =>
        if f && negb (match ms' with [] => false | (_, g) :: _ => g end) then
          match nexts ms' with
          | l :: rest => (fst o, snd l) :: rest
          | [] => [o]
          end
        else o :: nexts ms'
    end.

  Lemma fold_next_app ms1 : forall ms2 prev acc,
    fold_next (ms1 ++ ms2) prev acc = fold_next ms2 (last (map snd ms1) prev) (fold_next ms1 prev acc).
  Proof.
    induction ms1 as [|[o f] ms1 IH]; intros ms2 prev acc; [reflexivity|].
    cbn [app fold_next map snd]. rewrite IH. f_equal.
    destruct ms1 as [|x ms1]; [reflexivity|]. cbn [map]. clear. generalize (snd x); induction ms1 as [|y ms1 IH]; intros z; [reflexivity|].
    cbn [map last] in *. destruct ms1; [reflexivity|]. apply (IH (snd y)).
  Qed.

  Lemma last_rev_head (l : list bool) d : last (rev l) d = match l with [] => d | x :: _ => x end.
  Proof. destruct l as [|x l]; [reflexivity|]. cbn [rev]. apply last_last. Qed.

  Lemma fold_next_nexts ms : fold_next (rev ms) false [] = nexts ms.
  Proof.
    induction ms as [|[o f] ms IH]; [reflexivity|].
    cbn [rev]. rewrite fold_next_app, IH. cbn [fold_next nexts].
    rewrite map_rev, last_rev_head. destruct ms as [|[o' g] ms]; reflexivity.
  Qed.

  Lemma nexts_spec n : forall segs b, length segs <= n ->
    nexts (seg_offsets size b segs) = piece_offsets b (spec_next segs).
  Proof.
    induction n as [|n IH]; intros segs b Hn; (destruct segs as [|[t f] segs]; [reflexivity|]);
      cbn [length] in Hn; [lia|].
    cbn [seg_offsets nexts]. cbv zeta. set (e := b + list_sum (map size t)).
    destruct f.
    - destruct segs as [|[u g] segs].
      + reflexivity.
      + cbn [seg_offsets]. cbv zeta. destruct g; cbn [andb negb].
        * pose proof (IH ((u, true) :: segs) e ltac:(lia)) as G. cbn [seg_offsets] in G. cbv zeta in G.
          rewrite G. reflexivity.
        * cbn [nexts]. cbn [andb]. cbn [fst snd].
          cbn [length] in Hn. rewrite (IH segs) by lia. cbn [spec_next piece_offsets]. cbv zeta.
          rewrite size_app. unfold e. rewrite !Nat.add_assoc. reflexivity.
    - cbn [andb]. rewrite IH by lia. destruct segs; reflexivity.
  Qed.

  Lemma split_next segs b :
    fold_next (rev (seg_offsets size b segs)) false [] = piece_offsets b (spec_next segs).
  Proof. rewrite fold_next_nexts. eapply nexts_spec; eauto. Qed.

  Lemma split_isolated segs : forall b, map fst (seg_offsets size b segs) = piece_offsets b (spec_isolated segs).
  Proof. induction segs as [|[t f] segs IH]; intros b; cbn; [reflexivity|]. f_equal; apply IH. Qed.

  (** Pieces located in a text. *)
  Definition located (whole : list A) (o : nat * nat) (t : list A) : Prop :=
    exists p q, whole = p ++ t ++ q /\ fst o = list_sum (map size p) /\ snd o = list_sum (map size p) + list_sum (map size t).

  Lemma piece_offsets_located ps : forall done whole,
    whole = done ++ concat ps ->
    Forall2 (located whole) (piece_offsets (list_sum (map size done)) ps) ps.
  Proof.
    induction ps as [|t ps IH]; intros done whole E; cbn [piece_offsets]; constructor.
    - exists done, (concat ps). auto.
    - rewrite <- size_app. apply IH. rewrite E, <- app_assoc. reflexivity.
  Qed.

  Lemma removed_located segs : forall done whole,
    whole = done ++ concat (map fst segs) ->
    Forall2 (located whole)
      (map fst (filter (fun m => negb (snd m)) (seg_offsets size (list_sum (map size done)) segs)))
      (spec_removed segs).
  Proof.
    induction segs as [|[t f] segs IH]; intros done whole E; [constructor|].
    specialize (IH (done ++ t) whole ltac:(rewrite E, <- app_assoc; reflexivity)). rewrite size_app in IH.
    unfold spec_removed in *. cbn [seg_offsets filter snd]. destruct f; cbn [negb map fst]; [exact IH|].
    constructor; [|exact IH]. exists done, (concat (map fst segs)). auto.
  Qed.

  Lemma concat_contiguous (segs : list (list A * bool)) : concat (spec_contiguous segs) = concat (map fst segs).
  Proof.
    induction segs as [|[t f] segs IH]; [reflexivity|].
    cbn [map concat fst]. rewrite <- IH. cbn [spec_contiguous]. destruct segs as [|[u g] segs]; [reflexivity|].
    destruct (Bool.eqb f g); [|reflexivity].
    destruct (spec_contiguous ((u, g) :: segs)) as [|w ws]; [reflexivity|]. cbn. rewrite app_assoc; reflexivity.
  Qed.

  Lemma concat_previous n : forall segs : list (list A * bool), length segs <= n -> concat (spec_previous segs) = concat (map fst segs).
  Proof.
    induction n as [|n IH]; intros segs Hn; (destruct segs as [|[t f] segs]; [reflexivity|]); cbn [length] in Hn; [lia|].
    destruct f; [cbn; f_equal; apply IH; lia|]. destruct segs as [|[u g] segs]; [reflexivity|].
    destruct g.
    - cbn [spec_previous concat map fst]. rewrite IH by (cbn in Hn; lia). rewrite app_assoc; reflexivity.
    - change (spec_previous ((t, false) :: (u, false) :: segs)) with (t :: spec_previous ((u, false) :: segs)).
      cbn [concat map fst]. rewrite IH by lia. reflexivity.
  Qed.

  Lemma concat_next n : forall segs : list (list A * bool), length segs <= n -> concat (spec_next segs) = concat (map fst segs).
  Proof.
    induction n as [|n IH]; intros segs Hn; (destruct segs as [|[t f] segs]; [reflexivity|]); cbn [length] in Hn; [lia|].
    destruct f; [|cbn; f_equal; apply IH; lia]. destruct segs as [|[u g] segs]; [reflexivity|].
    destruct g.
    - change (spec_next ((t, true) :: (u, true) :: segs)) with (t :: spec_next ((u, true) :: segs)).
      cbn [concat map fst]. rewrite IH by lia. reflexivity.
    - cbn [spec_next concat map fst]. rewrite IH by (cbn in Hn; lia). rewrite app_assoc; reflexivity.
  Qed.

  Lemma concat_isolated (segs : list (list A * bool)) : concat (spec_isolated segs) = concat (map fst segs).
  Proof. reflexivity. Qed.

  Lemma split_located segs beh :
    Forall2 (located (concat (map fst segs))) (split_offsets (seg_offsets size 0 segs) beh) (spec_split beh segs).
  Proof.
    destruct beh; cbn [split_offsets spec_split].
    - apply (removed_located segs [] _ eq_refl).
    - rewrite split_isolated. apply (piece_offsets_located (spec_isolated segs) []). reflexivity.
    - rewrite split_previous. apply (piece_offsets_located (spec_previous segs) []).
      cbn [app]. symmetry; eapply concat_previous; eauto.
    - rewrite split_next. apply (piece_offsets_located (spec_next segs) []).
      cbn [app]. symmetry; eapply concat_next; eauto.
    - rewrite split_contiguous. apply (piece_offsets_located (spec_contiguous segs) []).
      cbn [app]. symmetry; apply concat_contiguous.
  Qed.
End tiling.

Lemma slice_located orig cal sh o t :
  wf_cal orig cal -> located csize cal o t ->
  exists ns', n_slice (show orig cal sh) (rn (fst o) (snd o)) = Ok ns' /\
              part_of (show orig cal sh) t ns' /\ aligned ns'.
Proof.
  intros W (p & q & Ec & E1 & E2). rewrite !csize_text in *. rewrite E1, E2. subst cal.
  destruct t as [|[c a] t].
  - assert (exists ns', n_slice (show orig (p ++ [] ++ q) sh) (rn (blen (ctext p)) (blen (ctext p) + blen (ctext []))) = Ok ns') as [ns' H].
    { cbn [ctext map blen]. rewrite Nat.add_0_r. unfold n_slice, validate_range. cbn [rn full_range n_normalized show].
      assert (Hb : is_boundary (ctext (p ++ [] ++ q)) (blen (ctext p)) = true).
      { rewrite ctext_app. apply is_boundary_spec; eauto. }
      rewrite Hb; cbn [andb]. unfold convert_offsets at 1, rn at 1. cbn [full_range]. rewrite Nat.eqb_refl.
      unfold rn at 1. cbn [full_range fst snd n_alignments show n_shift].
      unfold get_range. rewrite Nat.leb_refl, Nat.sub_diag; cbn [andb firstn].
      replace (_ <=? _) with true by (rewrite length_cbytes, ctext_app, blen_app; lia).
      cbn [map_res bind]. eauto. }
    exists ns'. split; [exact H|]. cbn [ctext map blen] in H. rewrite Nat.add_0_r in H.
    apply slice_empty in H. subst ns'. split; [cbn; auto|]. apply show_aligned; split; constructor.
  - destruct (slice_normalized orig sh p c a t q W) as (u & piece & v & Eo & Eu & Ep & W' & H).
    exists (show piece (shift_cal (blen u) ((c, a) :: t)) (sh + blen u)). split; [exact H|].
    split; [|apply show_aligned; exact W'].
    exists u, v. cbn [n_original show n_shift]. repeat split; auto.
Qed.

Lemma split_cal orig segs sh beh :
  wf_cal orig (concat (map fst segs)) ->
  exists pieces, n_split (show orig (concat (map fst segs)) sh) (seg_offsets csize 0 segs) beh = Ok pieces /\
    Forall2 (fun t ns' => part_of (show orig (concat (map fst segs)) sh) t ns' /\ aligned ns') (spec_split beh segs) pieces.
Proof.
  intros W. unfold n_split.
  pose proof (split_located csize segs beh) as L. revert L.
  generalize (split_offsets (seg_offsets csize 0 segs) beh) (spec_split beh segs).
  set (cal := concat (map fst segs)) in *. clearbody cal.
  intros os ts L. induction L as [|o t os ts H L (ps & E & F)]; [exists []; split; [reflexivity|constructor]|].
  destruct (slice_located orig cal sh o t W H) as (ns' & E1 & P).
  exists (ns' :: ps). split; [|constructor; auto].
  cbn [map_res]. unfold expect_slice at 1. rewrite E1. cbn [bind]. rewrite E. reflexivity.
Qed.
