(** Absence of panics in safe histories; offset conversion; byte/char ranges. *)
From Coq Require Import ZArith Sorting.Sorted.
From Verif Require Import Base ListFacts StrBytes NormModel NormSpec NormProofs NormProofs2 NormProofs3 NormProofs4.

(** ** Safe histories *)
Definition csolid (cal : cals) : Prop := Forall (fun ca => fst (snd ca) < snd (snd ca)) cal.

Lemma solid_show orig cal sh : solid (show orig cal sh) <-> csolid cal.
Proof.
  unfold solid, csolid; cbn [n_alignments show]. split.
  - intros H. apply Forall_forall; intros [c a] Hin. apply in_split in Hin; destruct Hin as (p & q & ->).
    rewrite Forall_forall in H. apply H. eapply nth_error_In.
    apply (nth_cbytes_head p (c, a) q 0). pose proof (len_utf8_pos c); cbn; lia.
  - intros H. apply Forall_cbytes with (P := fun a => fst a < snd a). exact H.
Qed.

Lemma csolid_hwide cal : csolid cal -> hwide cal.
Proof. intros H; destruct H; cbn; auto. Qed.

Lemma tloop_in_fit dest : forall prev rest q new,
  changes_fit (length rest) dest -> tloop prev dest rest q = Ok new ->
  forall a, In a (map snd new) -> a = prev \/ In a (map snd rest).
Proof.
  induction dest as [|[c ch] dest IH]; intros prev rest q new Hf H; cbn [tloop changes_fit] in H, Hf.
  - injection H as <-; intros ? [].
  - destruct (0 <? ch)%Z.
    + destruct (tloop prev dest rest q) as [n| |] eqn:E; try discriminate. injection H as <-.
      cbn [map snd]. intros a [<- | Ha]; auto. eapply IH; eauto.
    + destruct Hf as [Hn Hf]. destruct rest as [|[c0 a0] rest]; [cbn in Hn; lia|]. cbn [app] in H. cbv zeta in H.
      set (k := Z.to_nat (- ch)) in *. cbn [firstn skipn] in H.
      destruct (tloop _ dest _ q) as [n| |] eqn:E; try discriminate. injection H as <-.
      cbn [map snd]. intros a [<- | Ha]; [right; left; reflexivity|].
      assert (Hf' : changes_fit (length (skipn k rest)) dest).
      { rewrite skipn_length. cbn [length] in Hf. replace (length rest - k) with (S (length rest) - 1 - k) by lia. exact Hf. }
      destruct (IH _ _ _ _ Hf' E a Ha) as [-> | Hin].
      * right. rewrite last_al_cons. destruct (last_al_In a0 (firstn k rest)) as [E'|E']; [left; exact E'|].
        right. eapply in_snd_firstn; eauto.
      * right; right. eapply in_snd_skipn; eauto.
Qed.

Lemma tloop_in_replacing dest prev rest q new :
  changes_fit (length rest) dest -> starts_by_replacing dest -> tloop prev dest rest q = Ok new ->
  forall a, In a (map snd new) -> In a (map snd rest).
Proof.
  intros Hf Hs H a Ha. destruct dest as [|[c ch] dest]; cbn [tloop starts_by_replacing changes_fit] in *.
  - injection H as <-; destruct Ha.
  - replace (0 <? ch)%Z with false in * by lia.
    destruct Hf as [Hn Hf]. destruct rest as [|[c0 a0] rest]; [cbn in Hn; lia|]. cbn [app] in H. cbv zeta in H.
    set (k := Z.to_nat (- ch)) in *. cbn [firstn skipn] in H.
    destruct (tloop _ dest _ q) as [n| |] eqn:E; try discriminate. injection H as <-.
    cbn [map snd] in Ha. destruct Ha as [<- | Ha]; [left; reflexivity|].
    assert (Hf' : changes_fit (length (skipn k rest)) dest).
    { rewrite skipn_length. cbn [length] in Hf. replace (length rest - k) with (S (length rest) - 1 - k) by lia. exact Hf. }
    destruct (tloop_in_fit _ _ _ _ _ Hf' E a Ha) as [-> | Hin].
    + rewrite last_al_cons. destruct (last_al_In a0 (firstn k rest)) as [E'|E']; [left; exact E'|].
      right. eapply in_snd_firstn; eauto.
    + right. eapply in_snd_skipn; eauto.
Qed.

Lemma csolid_in cal cal' : csolid cal -> (forall a, In a (map snd cal') -> In a (map snd cal)) -> csolid cal'.
Proof.
  unfold csolid; rewrite !Forall_forall. intros H1 H2 x Hx.
  specialize (H2 (snd x) (in_map snd _ _ Hx)). apply in_map_iff in H2. destruct H2 as (y & E & Hy).
  specialize (H1 _ Hy). rewrite E in H1; exact H1.
Qed.

Lemma trange_safe orig p m q dest k0 sh :
  wf_cal orig (p ++ m ++ q) -> csolid (p ++ m ++ q) ->
  changes_fit (length m - k0) dest -> starts_by_replacing dest ->
  exists cal', trange orig p m q dest k0 sh = Ok (show orig cal' sh) /\ wf_cal orig cal' /\ csolid cal'.
Proof.
  intros W S Hf Hs. unfold trange.
  assert (Hf' : changes_fit (length (skipn k0 m)) dest) by (rewrite skipn_length; exact Hf).
  destruct (tloop_total dest (last_al (0, 0) (p ++ firstn k0 m)) (skipn k0 m) q Hf') as [new E].
  rewrite E. exists (p ++ new ++ q). split; [reflexivity|].
  split; [eapply wf_splice; eauto|].
  eapply csolid_in; [exact S|]. intros a. rewrite !map_app, !in_app_iff. intros [H|[H|H]]; auto.
  right; left. eapply in_snd_skipn. eapply tloop_in_replacing; eauto.
Qed.

Lemma slice_solid ns r ns' : solid ns -> n_slice ns r = Ok ns' -> solid ns'.
Proof.
  intros S H. unfold n_slice in H. destruct (validate_range ns r) as [fr|]; [|discriminate].
  destruct (convert_offsets ns fr) as [conv|]; [|discriminate].
  destruct (match fr with ROriginal _ _ => _ | _ => _ end) as [nr or].
  destruct (get_range _ _ _) as [al|] eqn:E; [|discriminate].
  destruct (map_res _ al) as [al'| |] eqn:Em; try discriminate. cbn [bind] in H. injection H as <-.
  unfold solid in *; cbn [n_alignments].
  assert (Sal : Forall (fun a => fst a < snd a) al).
  { unfold get_range in E. destruct (_ && _); [|discriminate]. injection E as <-.
    rewrite Forall_forall in *. intros x Hx. apply S.
    rewrite <- (firstn_skipn (fst nr) (n_alignments ns)). apply in_or_app; right.
    rewrite <- (firstn_skipn (snd nr - fst nr) (skipn (fst nr) _)). apply in_or_app; left; exact Hx. }
  clear E. revert al' Em. induction Sal as [|a al Ha _ IH]; intros al' Em; cbn [map_res] in Em.
  - injection Em as <-; constructor.
  - unfold shift_alignment at 1 in Em. destruct (_ && _) eqn:E2; [|discriminate]. cbn [bind] in Em.
    destruct (map_res _ al) as [l| |] eqn:E; try discriminate. injection Em as <-.
    constructor; [cbn; lia|]. apply IH; reflexivity.
Qed.

Lemma spec_replace_in content segs : forall prev a,
  (forall t, In (t, true) segs -> t <> []) ->
  In a (map snd (spec_replace content prev segs)) -> In a (map snd (concat (map fst segs))).
Proof.
  induction segs as [|[t f] segs IH]; intros prev a Hne H; cbn [spec_replace map concat fst] in *; [exact H|].
  rewrite map_app in H |- *. apply in_app_or in H; apply in_or_app. destruct H as [H|H].
  - destruct f; [|auto]. left. apply in_map_iff in H; destruct H as (ca & <- & H).
    apply in_map_iff in H; destruct H as (c & <- & _). cbn [snd].
    destruct t as [|x t]; [exfalso; eapply Hne; [left|]; reflexivity|].
    rewrite last_al_cons. exact (last_al_In (snd x) t).
  - right. eapply IH; eauto. intros; apply Hne; right; assumption.
Qed.

Lemma wf_spec_replace orig (sh : nat) content segs :
  wf_cal orig (concat (map fst segs)) -> wf_cal orig (spec_replace content (0, 0) segs).
Proof.
  intros W. pose proof (replace_cal orig sh content segs) as E. unfold n_replace in E.
  destruct (replace_loop _ _ content 0) as [[t al]| |] eqn:Er; try discriminate.
  cbn [bind] in E.
  destruct (replace_loop_wf orig _ sh content _ [] _ t al eq_refl W Er) as (new & -> & -> & F & S).
  injection E as E1 E2. cbn [n_original n_shift show] in *.
  assert (new = spec_replace content (0, 0) segs) as <-.
  { clear -E1 E2. revert E1 E2. generalize (spec_replace content (0, 0) segs). induction new as [|[c a] new IH]; intros [|[c' a'] l] E1 E2; try discriminate; [reflexivity|].
    rewrite !ctext_cons in E1. rewrite !cbytes_cons in E2. cbn [fst snd] in *. injection E1 as <- E1.
    pose proof (len_utf8_pos c). destruct (app_split_len _ _ _ _ E2 ltac:(rewrite !repeat_length; reflexivity)) as [E3 E4].
    destruct (len_utf8 c); [lia|]. injection E3 as -> _. f_equal. apply IH; assumption. }
  split; [exact F|]. apply sorted_cons_inv in S; apply S.
Qed.

Lemma safe_step_ok orig cal sh op :
  wf_cal orig cal -> csolid cal -> safe_op (show orig cal sh) op ->
  exists orig' cal' sh', apply_norm_op (show orig cal sh) op = Ok (show orig' cal' sh') /\
                         wf_cal orig' cal' /\ csolid cal'.
Proof.
  intros W S C. pose proof (csolid_hwide _ S) as Hw. destruct op; cbn [apply_norm_op safe_op] in *.
  - destruct C as (Hs & t & Hg & Hf).
    assert (G : exists p m q, cal = p ++ m ++ q /\
                match r with
                | RNormalized s e => full_range s e (blen (ctext (p ++ m ++ q)))
                   = (blen (ctext p), blen (ctext p) + blen (ctext m))
                | ROriginal _ _ => convert_offsets (show orig (p ++ m ++ q) sh) r
                   = Some (blen (ctext p), blen (ctext p) + blen (ctext m))
                end /\ t = ctext m).
    { unfold n_get_range in Hg. destruct r as [s e|s e].
      - destruct (convert_offsets (show orig cal sh) (ROriginal s e)) as [[a b]|] eqn:Ec; [|discriminate].
        cbn [n_normalized show] in Hg. apply str_get_inv in Hg; destruct Hg as (x & y & E & -> & ->).
        apply ctext_split3 in E; destruct E as (p & m & q & -> & <- & <- & <-). exists p, m, q; auto.
      - destruct (full_range s e (n_len (show orig cal sh))) as [a b] eqn:Ec.
        cbn [n_normalized show] in Hg. apply str_get_inv in Hg; destruct Hg as (x & y & E & -> & ->).
        apply ctext_split3 in E; destruct E as (p & m & q & -> & <- & <- & <-). exists p, m, q; auto. }
    destruct G as (p & m & q & -> & Hr & ->). rewrite length_ctext in Hf.
    rewrite (transform_range_cal orig p m q sh r) by exact Hr.
    destruct (trange_safe orig p m q dest initial_offset sh W S Hf Hs) as (cal' & E & W' & S'). eauto 6.
  - destruct C as [Hs Hf]. cbn [n_normalized show] in Hf. rewrite length_ctext in Hf.
    destruct cal as [|ca cal].
    + destruct dest as [|[c ch] d].
      * rewrite transform_empty_text. eauto 6.
      * exfalso. cbn [starts_by_replacing changes_fit length] in *. replace (0 <? ch)%Z with false in Hf by lia. lia.
    + rewrite transform_hwide by (auto; discriminate).
      destruct (trange_safe orig [] (ca :: cal) [] dest initial_offset sh) as (cal' & E & W' & S');
        [rewrite app_nil_r; exact W|rewrite app_nil_r; exact S|exact Hf|exact Hs|]. eauto 6.
  - rewrite filter_cal by assumption. exists orig, (filter (fun ca => keep (fst ca)) cal), sh.
    split; [reflexivity|].
    pose proof (filter_cal orig cal sh keep W Hw) as E. split.
    + apply op_wf with (op := MFilter keep) in E; [|exact W|exact I].
      clear E. destruct W as [W1 W2]. split.
      * rewrite Forall_forall in *. intros a Ha. apply W1. apply in_map_iff in Ha; destruct Ha as (x & <- & Ha).
        apply filter_In in Ha. apply in_map; tauto.
      * clear -W2. induction cal as [|x cal IH]; [constructor|]. cbn [map] in W2.
        apply sorted_cons_inv in W2; destruct W2 as [W2 W3]. cbn [filter]. destruct (keep (fst x)); [|auto].
        cbn [map]. apply sorted_cons; [auto|]. intros b Hb. apply W3. apply in_map_iff in Hb; destruct Hb as (y & <- & Hb).
        apply filter_In in Hb. apply in_map; tauto.
    + unfold csolid in *. rewrite Forall_forall in *. intros x Hx. apply filter_In in Hx. apply S; tauto.
  - destruct cal as [|[c a] r].
    + cbn. eauto 6.
    + rewrite prepend_result by exact C.
      exists orig, (map (fun x => (x, a)) s ++ (c, a) :: r), sh. split; [reflexivity|].
      pose proof (prepend_result orig c a r sh s C) as E. rewrite prepend_cal in E.
      apply trange_wf in E; [|exact W|apply fit_app_positive, fit_first_replaces; cbn; lia].
      destruct E as (cal' & E & W').
      assert (Hal : forall b, In b (map snd (map (fun x : char => (x, a)) s ++ (c, a) :: r)) -> In b (map snd ((c, a) :: r))).
      { intros b Hb. rewrite map_app in Hb; apply in_app_or in Hb; destruct Hb as [Hb|Hb]; [|exact Hb].
        left. apply in_map_iff in Hb; destruct Hb as (ca & <- & Hb). apply in_map_iff in Hb; destruct Hb as (? & <- & _); reflexivity. }
      split; [|eapply csolid_in; [exact S|exact Hal]].
      clear E W'. destruct W as [W1 W2]. split.
      * rewrite Forall_forall in *. intros b Hb; apply W1, Hal; exact Hb.
      * rewrite map_app. apply sorted_app; [|exact W2|].
        -- clear. induction s as [|x s IH]; [constructor|]. cbn [map snd]. apply sorted_cons; [exact IH|].
           intros b Hb. apply in_map_iff in Hb; destruct Hb as (ca & <- & Hb). apply in_map_iff in Hb; destruct Hb as (? & <- & _); auto.
        -- intros b b' Hb Hb'. apply in_map_iff in Hb; destruct Hb as (ca & <- & Hb). apply in_map_iff in Hb; destruct Hb as (? & <- & _).
           cbn [snd]. cbn [map snd] in Hb'. destruct Hb' as [<- | Hb']; auto.
           cbn [map snd] in W2; apply sorted_cons_inv in W2; apply W2; exact Hb'.
  - destruct cal as [|x l] using rev_ind.
    + destruct C as [C | ->]; [exfalso; apply C; reflexivity|].
      rewrite append_nil. unfold trange. cbn. eauto 6.
    + destruct x as [c a]. clear IHl C. rewrite append_result.
      exists orig, (l ++ (c, a) :: map (fun x => (x, a)) s), sh. split; [reflexivity|].
      pose proof (append_result orig l c a sh s) as E. rewrite append_cal in E.
      assert (Hal : forall b, In b (map snd (l ++ (c, a) :: map (fun x : char => (x, a)) s)) -> In b (map snd (l ++ [(c, a)]))).
      { intros b Hb. rewrite map_app in *; apply in_or_app; apply in_app_or in Hb; destruct Hb as [Hb|Hb]; [auto|right].
        cbn [map snd] in *. destruct Hb as [<- | Hb]; [left; reflexivity|]. left.
        apply in_map_iff in Hb; destruct Hb as (ca & <- & Hb). apply in_map_iff in Hb; destruct Hb as (? & <- & _); reflexivity. }
      split; [|eapply csolid_in; [exact S|exact Hal]].
      clear E. destruct W as [W1 W2]. split.
      * rewrite Forall_forall in *. intros b Hb; apply W1, Hal; exact Hb.
      * rewrite map_app in *. apply sorted_app_inv in W2; destruct W2 as (W2 & _ & W3). apply sorted_app; [exact W2| |].
        -- cbn [map snd]. assert (G : forall b, In b (map snd (map (fun x : char => (x, a)) s)) -> b = a).
           { intros b Hb. apply in_map_iff in Hb; destruct Hb as (ca & <- & Hb). apply in_map_iff in Hb; destruct Hb as (? & <- & _); reflexivity. }
           apply sorted_cons; [|intros b Hb; rewrite (G b Hb); auto].
           clear -G. induction s as [|x s IH]; [constructor|]. cbn [map snd] in *. apply sorted_cons; [apply IH; intros; apply G; right; assumption|].
           intros b Hb. rewrite (G b); auto. right; exact Hb.
        -- intros b b' Hb Hb'. cbn [map snd] in Hb'. apply W3; [exact Hb|]. left.
           destruct Hb' as [<- | Hb']; [reflexivity|]. apply in_map_iff in Hb'; destruct Hb' as (ca & <- & Hb'). apply in_map_iff in Hb'; destruct Hb' as (? & <- & _); reflexivity.
  - rewrite map_cal by assumption. eexists orig, _, sh. split; [reflexivity|].
    unfold wf_cal, csolid in *. rewrite map_map. cbn [snd]. split; [exact W|].
    rewrite Forall_forall in *. intros x Hx. apply in_map_iff in Hx; destruct Hx as (y & <- & Hy). cbn [snd]. auto.
  - pose proof (case_cal orig cal sh f W Hw C) as E. rewrite E. eexists orig, _, sh. split; [reflexivity|].
    assert (G : forall x, In x (map snd (flat_map (fun ca => map (fun c => (c, snd ca)) (f (fst ca))) cal)) -> In x (map snd cal)).
    { intros x Hx. apply in_map_iff in Hx; destruct Hx as (y & <- & Hy). apply in_flat_map in Hy.
      destruct Hy as (ca & H1 & H2). apply in_map_iff in H2; destruct H2 as (c & <- & _). cbn [snd]. apply in_map; exact H1. }
    split; [|eapply csolid_in; [exact S|exact G]].
    unfold n_case in E. apply transform_wf in E; [|exact W]. destruct E as (cal' & E & W').
    clear E W'. destruct W as [W1 W2]. split.
    + rewrite Forall_forall in *. intros b Hb; apply W1, G; exact Hb.
    + clear G. induction cal as [|[c a] cal IH]; [constructor|]. cbn [map snd] in W2. apply sorted_cons_inv in W2; destruct W2 as [W2 W3].
      cbn [flat_map fst snd]. rewrite map_app. apply sorted_app.
      * generalize (f c). induction l as [|x l IHl]; [constructor|]. cbn [map snd]. apply sorted_cons; [exact IHl|].
        intros b Hb. apply in_map_iff in Hb; destruct Hb as (ca & <- & Hb). apply in_map_iff in Hb; destruct Hb as (? & <- & _); auto.
      * apply IH; auto.
        -- inversion W1; assumption.
        -- inversion S; assumption.
        -- apply csolid_hwide; inversion S; assumption.
      * intros b b' Hb Hb'. apply in_map_iff in Hb; destruct Hb as (ca & <- & Hb). apply in_map_iff in Hb; destruct Hb as (? & <- & _).
        cbn [snd]. apply W3. apply in_map_iff in Hb'; destruct Hb' as (y & <- & Hy). apply in_flat_map in Hy.
        destruct Hy as (cb & H1 & H2). apply in_map_iff in H2; destruct H2 as (? & <- & _). cbn [snd]. apply in_map; exact H1.
  - destruct C as (segs & (Ec & Em) & Hne). cbn [n_normalized show] in *.
    destruct (lift_segs segs cal Ec) as (csegs & -> & Es & Eo).
    rewrite Em, <- (Eo 0), replace_cal. eexists orig, _, sh. split; [reflexivity|].
    split; [apply (wf_spec_replace orig sh); exact W|]. eapply csolid_in; [exact S|].
    intros a Ha. eapply spec_replace_in; [|exact Ha]. intros t Ht ->.
    apply (Hne []); [|reflexivity]. rewrite <- Es. apply in_map_iff. exists ([], true); auto.
  - rewrite clear_cal by assumption. exists orig, [], sh. repeat split; constructor.
  - destruct (lrstrip_cal orig cal sh is_ws left right W Hw) as (l & m & r & -> & _ & _ & _ & _ & _ & _ & ->).
    exists orig, m, sh. split; [reflexivity|]. split; [eapply wf_sub; exact W|].
    unfold csolid in *. rewrite !Forall_app in S; tauto.
  - pose proof (slice_wf orig cal sh r W) as H. destruct (n_slice _ r) as [x|e|] eqn:E; [|eauto 6|destruct H].
    destruct H as (o' & c' & s' & -> & W'). exists o', c', s'. split; [reflexivity|]. split; [exact W'|].
    apply slice_solid in E; [apply solid_show in E; exact E|]. apply solid_show; exact S.
Qed.

Lemma id_cal_solid s : forall b, csolid (id_cal b s).
Proof. induction s as [|c s IH]; intros b; constructor; [pose proof (len_utf8_pos c); cbn; lia|apply IH]. Qed.

Lemma safe_reachable_inv s ns : safe_reachable s ns ->
  exists orig cal sh, ns = show orig cal sh /\ wf_cal orig cal /\ csolid cal.
Proof.
  induction 1 as [|ns op ns' _ (orig & cal & sh & -> & W & S) C H].
  - exists s, (id_cal 0 s), 0. split; [apply nfrom_show|]. split; [apply wf_id_cal|apply id_cal_solid].
  - destruct (safe_step_ok _ _ _ _ W S C) as (o & c & k & E & W' & S'). rewrite E in H. injection H as <-. eauto 6.
Qed.

(** ** bytes_to_char and char_to_bytes *)
Lemma char_indices_app a : forall b x, char_indices b (a ++ x) = char_indices b a ++ char_indices (b + blen a) x.
Proof.
  induction a as [|c a IH]; intros b x; cbn [app char_indices blen]; [rewrite Nat.add_0_r; reflexivity|].
  rewrite IH. rewrite Nat.add_assoc; reflexivity.
Qed.
Lemma char_indices_length a : forall b, length (char_indices b a) = length a.
Proof. induction a as [|c a IH]; intros b; cbn; [reflexivity|]. rewrite IH; reflexivity. Qed.

Lemma char_indices_in s : forall b x c, In (x, c) (char_indices b s) ->
  exists p q, s = p ++ c :: q /\ x = b + blen p.
Proof.
  induction s as [|c0 s IH]; intros b x c H; [destruct H|]. cbn [char_indices] in H. destruct H as [H|H].
  - injection H as -> ->. exists [], s. cbn; split; [reflexivity|lia].
  - apply IH in H. destruct H as (p & q & -> & ->). exists (c0 :: p), q. cbn [app blen]. split; [reflexivity|lia].
Qed.

Lemma btc_skip p : forall b i x rs re st fn,
  b + blen p <= rs -> rs <= re ->
  btc_loop (char_indices b (p ++ x)) i rs re st fn = btc_loop (char_indices (b + blen p) x) (i + length p) rs re st fn.
Proof.
  induction p as [|c p IH]; intros b i x rs re st fn H1 H2; cbn [app length blen char_indices] in *.
  - rewrite !Nat.add_0_r; reflexivity.
  - pose proof (len_utf8_pos c). cbn [btc_loop]. replace (b <=? re) with true by lia. replace (rs <=? b) with false by lia.
    rewrite IH by lia. f_equal; [f_equal; lia|lia].
Qed.

Lemma btc_mid m : forall b i q rs re st fn,
  rs < b -> b + blen m = re ->
  btc_loop (char_indices b (m ++ q)) i rs re (Some st) fn =
  (Some st, match m, q with [], [] => fn | _, _ => Some (i + length m) end).
Proof.
  induction m as [|c m IH]; intros b i q rs re st fn H1 H2; cbn [app length blen] in *.
  - rewrite !Nat.add_0_r in *. subst b. destruct q as [|c q]; [reflexivity|].
    pose proof (len_utf8_pos c). cbn [char_indices btc_loop]. rewrite Nat.leb_refl. replace (rs <=? re) with true by lia.
    replace (re =? rs) with false by lia. rewrite Nat.eqb_refl. replace (re + len_utf8 c =? re) with false by lia.
    destruct q as [|c' q]; [reflexivity|]. cbn [char_indices btc_loop]. replace (re + len_utf8 c <=? re) with false by lia. reflexivity.
  - pose proof (len_utf8_pos c). cbn [char_indices btc_loop]. replace (b <=? re) with true by lia. replace (rs <=? b) with true by lia.
    replace (b =? rs) with false by lia. replace (b =? re) with false by lia. cbv zeta.
    rewrite IH by lia. f_equal. destruct m as [|c' m].
    + cbn [blen length app] in *. replace (b + len_utf8 c =? re) with true by lia. destruct q; f_equal; lia.
    + cbn [length app]. f_equal. lia.
Qed.

Lemma bytes_to_char_ok p m q :
  m <> [] \/ q <> [] \/ p = [] ->
  bytes_to_char (p ++ m ++ q) (blen p) (blen p + blen m) = Some (length p, length p + length m).
Proof.
  intros H. unfold bytes_to_char. rewrite btc_skip by lia. cbn [Nat.add].
  destruct m as [|c m].
  - cbn [blen length app]. rewrite !Nat.add_0_r. destruct q as [|c q].
    + destruct H as [H|[H| ->]]; [congruence|congruence|]. reflexivity.
    + pose proof (len_utf8_pos c). cbn [char_indices btc_loop]. rewrite Nat.leb_refl, Nat.eqb_refl.
      replace (blen p + len_utf8 c =? blen p) with false by lia. cbv zeta.
      destruct q as [|c' q]; [reflexivity|]. cbn [char_indices btc_loop].
      replace (blen p + len_utf8 c <=? blen p) with false by lia. reflexivity.
  - pose proof (len_utf8_pos c). cbn [blen length app char_indices btc_loop].
    replace (blen p <=? blen p + (len_utf8 c + blen m)) with true by lia. rewrite Nat.leb_refl, Nat.eqb_refl.
    replace (blen p =? blen p + (len_utf8 c + blen m)) with false by lia. cbv zeta.
    rewrite btc_mid by lia. cbn [pair_opt].
    destruct m as [|c' m].
    + cbn [blen]. rewrite Nat.add_0_r, Nat.eqb_refl. destruct q; cbn [pair_opt length]; f_equal; f_equal; lia.
    + cbn [pair_opt length]. f_equal; f_equal; lia.
Qed.

Lemma btc_start_none l : forall i rs re st fn,
  (forall b c, In (b, c) l -> b <> rs \/ re < b) -> fst (btc_loop l i rs re st fn) = st.
Proof.
  induction l as [|[b c] l IH]; intros i rs re st fn H; cbn [btc_loop]; [reflexivity|].
  destruct (b <=? re) eqn:E1; [|reflexivity].
  assert (H' : forall b c, In (b, c) l -> b <> rs \/ re < b) by (intros; eapply H; right; eauto).
  destruct (rs <=? b); [|apply IH; exact H']. cbv zeta. rewrite IH by exact H'.
  destruct (H b c (or_introl eq_refl)); [|lia]. replace (b =? rs) with false by lia. reflexivity.
Qed.

Lemma btc_fin_none l : forall i rs re st fn,
  (forall b c, In (b, c) l -> b <> re /\ b + len_utf8 c <> re) -> snd (btc_loop l i rs re st fn) = fn.
Proof.
  induction l as [|[b c] l IH]; intros i rs re st fn H; cbn [btc_loop]; [reflexivity|].
  destruct (b <=? re) eqn:E1; [|reflexivity].
  assert (H' : forall b c, In (b, c) l -> b <> re /\ b + len_utf8 c <> re) by (intros; eapply H; right; eauto).
  destruct (rs <=? b); [|apply IH; exact H']. cbv zeta. rewrite IH by exact H'.
  destruct (H b c (or_introl eq_refl)). replace (b =? re) with false by lia. replace (b + len_utf8 c =? re) with false by lia.
  reflexivity.
Qed.

Lemma bytes_to_char_inv s rs re i j :
  bytes_to_char s rs re = Some (i, j) ->
  exists p m q, s = p ++ m ++ q /\ rs = blen p /\ re = blen p + blen m /\ i = length p /\ j = length p + length m /\
                (m <> [] \/ q <> [] \/ p = []).
Proof.
  intros H. destruct ((rs =? 0) && (re =? 0)) eqn:E0.
  - assert (rs = 0 /\ re = 0) as [-> ->] by lia. pose proof (bytes_to_char_ok [] [] s ltac:(auto)) as G.
    cbn [app blen length Nat.add] in G. rewrite G in H. injection H as <- <-.
    exists [], [], s. cbn; auto 8.
  - pose proof H as H0. unfold bytes_to_char in H. rewrite E0 in H.
    set (r := btc_loop _ _ _ _ _ _) in *.
    assert (Hs : fst r <> None) by (destruct r as [[|] ?]; cbn in *; congruence).
    assert (Hf : snd r <> None) by (destruct r as [[|] [|]]; cbn in *; congruence).
    assert (Hrs : exists b c, In (b, c) (char_indices 0 s) /\ b = rs /\ b <= re).
    { destruct (Exists_dec (fun bc => fst bc = rs /\ fst bc <= re) (char_indices 0 s)) as [X|X].
      - intros x. destruct (Nat.eq_dec (fst x) rs), (le_dec (fst x) re); tauto.
      - apply Exists_exists in X. destruct X as ([b c] & X1 & X2 & X3). exists b, c; cbn in *; auto.
      - exfalso. apply Hs. unfold r. apply btc_start_none. intros b c Hin.
        destruct (Nat.eq_dec b rs); [|auto]. right. destruct (le_lt_dec b re); [|auto]. exfalso; apply X.
        apply Exists_exists. exists (b, c); auto. }
    assert (Hre : exists b c, In (b, c) (char_indices 0 s) /\ (b = re \/ b + len_utf8 c = re)).
    { destruct (Exists_dec (fun bc => fst bc = re \/ fst bc + len_utf8 (snd bc) = re) (char_indices 0 s)) as [X|X].
      - intros x. destruct (Nat.eq_dec (fst x) re), (Nat.eq_dec (fst x + len_utf8 (snd x)) re); tauto.
      - apply Exists_exists in X. destruct X as ([b c] & X1 & X2). exists b, c; cbn in *; auto.
      - exfalso. apply Hf. unfold r. apply btc_fin_none. intros b c Hin. split; intros E; apply X; apply Exists_exists; exists (b, c); auto. }
    clear Hs Hf r H. destruct Hrs as (b1 & c1 & I1 & <- & Hle). destruct Hre as (b2 & c2 & I2 & E2).
    apply char_indices_in in I1, I2. destruct I1 as (p & q & Es & E1). destruct I2 as (p2 & q2 & Es2 & E3). cbn [Nat.add] in *.
    assert (Hb : is_boundary s re = true).
    { apply is_boundary_spec. destruct E2 as [<- | <-].
      - exists p2, (c2 :: q2). auto.
      - exists (p2 ++ [c2]), q2. rewrite <- app_assoc, blen_app. cbn [app blen]. split; [exact Es2|lia]. }
    apply is_boundary_spec in Hb. destruct Hb as (x & y & Ex & Ere).
    destruct (blen_prefix_cmp p (c1 :: q) x y ltac:(congruence) ltac:(lia)) as (m & -> & Em).
    rewrite blen_app in Ere. 
    assert (Hside : m <> [] \/ y <> [] \/ p = []) by (destruct m; [right; left; cbn in Em; congruence|left; discriminate]).
    rewrite <- app_assoc in Ex.
    pose proof (bytes_to_char_ok p m y Hside) as G. rewrite <- Ex, <- E1 in G.
    rewrite <- E1 in Ere. rewrite <- Ere, H0 in G. injection G as -> ->.
    exists p, m, y. repeat split; auto; lia.
Qed.

Lemma ctb_mid m : forall b st fn,
  ctb_loop (char_indices b m) (Some st) fn = (Some st, match m with [] => fn | _ => Some (b + blen m) end).
Proof.
  induction m as [|c m IH]; intros b st fn; cbn [char_indices ctb_loop blen]; [reflexivity|].
  rewrite IH. f_equal. destruct m; cbn [blen]; f_equal; lia.
Qed.

Lemma char_to_bytes_ok p m q :
  m <> [] \/ q <> [] \/ p = [] ->
  char_to_bytes (p ++ m ++ q) (length p) (length p + length m) = Ok (Some (blen p, blen p + blen m)).
Proof.
  intros H. unfold char_to_bytes.
  rewrite char_indices_app. cbn [Nat.add].
  assert (Es : skipn (length p) (char_indices 0 p ++ char_indices (blen p) (m ++ q)) = char_indices (blen p) (m ++ q)).
  { rewrite skipn_app, char_indices_length, Nat.sub_diag, skipn_all2 by (rewrite char_indices_length; lia). reflexivity. }
  rewrite Es. destruct m as [|c m].
  - cbn [length blen app]. rewrite !Nat.add_0_r, Nat.eqb_refl. destruct q as [|c q]; [|reflexivity].
    destruct H as [H|[H| ->]]; [congruence|congruence|reflexivity].
  - cbn [length]. replace (_ =? _) with false by lia. replace (_ <? _) with false by lia.
    replace (length p + S (length m) - length p) with (S (length m)) by lia.
    rewrite char_indices_app. rewrite firstn_app, char_indices_length. cbn [length]. rewrite Nat.sub_diag. cbn [firstn].
    rewrite app_nil_r.
    replace ((length p =? 0) && (length p + S (length m) =? 0)) with false by lia.
    cbn [char_indices ctb_loop]. rewrite firstn_all2 by (rewrite char_indices_length; lia). rewrite ctb_mid. cbn [pair_opt blen]. destruct m; cbn [blen pair_opt]; f_equal; f_equal; f_equal; lia.
Qed.

Lemma get_range_of_ok p m q :
  m <> [] -> get_range_of (p ++ m ++ q) (length p) (length p + length m) = Ok (Some m).
Proof.
  intros H. destruct m as [|c m]; [congruence|]. unfold get_range_of.
  replace (_ && _) with false by (cbn [length]; lia).
  replace (_ || _) with false by (rewrite !app_length; cbn [length]; lia).
  assert (E1 : nth_error (char_indices 0 (p ++ (c :: m) ++ q)) (length p) = Some (blen p, c)).
  { rewrite char_indices_app, nth_error_app2; rewrite char_indices_length; [|lia]. rewrite Nat.sub_diag. reflexivity. }
  rewrite E1.
  assert (E2 : match nth_error (char_indices 0 (p ++ (c :: m) ++ q)) (length p + length (c :: m)) with
               | Some (i, _) => i | None => blen (p ++ (c :: m) ++ q) end = blen p + blen (c :: m)).
  { rewrite app_assoc, char_indices_app, nth_error_app2; rewrite char_indices_length, app_length; [|lia].
    rewrite Nat.sub_diag. destruct q as [|c' q]; cbn [char_indices nth_error].
    - rewrite app_nil_r, blen_app; reflexivity.
    - rewrite blen_app; reflexivity. }
  rewrite E2, str_get_app. reflexivity.
Qed.
