(** Every operation at the level of characters carrying ranges; slices. *)
From Coq Require Import ZArith Sorting.Sorted.
From Verif Require Import Base ListFacts StrBytes NormModel NormSpec NormProofs.

(** ** Slices *)
Lemma get_range_app {A} (p m q : list A) a b :
  a = length p -> b = length p + length m -> get_range (p ++ m ++ q) a b = Some m.
Proof.
  intros -> ->. unfold get_range. replace (_ && _) with true by (rewrite !app_length; lia).
  rewrite skipn_app, skipn_all, Nat.sub_diag; cbn [app skipn].
  replace (length p + length m - length p) with (length m) by lia.
  rewrite firstn_app, firstn_all, Nat.sub_diag; cbn [firstn]; rewrite app_nil_r; reflexivity.
Qed.

Lemma get_range_cal p m q :
  get_range (cbytes (p ++ m ++ q)) (blen (ctext p)) (blen (ctext p) + blen (ctext m)) = Some (cbytes m).
Proof. rewrite !cbytes_app; apply get_range_app; rewrite !length_cbytes; lia. Qed.

Lemma slice_app {E A} (p m q : list A) a b :
  a = length p -> b = length p + length m -> @slice E A (p ++ m ++ q) a b = Ok m.
Proof.
  intros Ha Hb. pose proof (get_range_app p m q a b Ha Hb) as H. unfold get_range, slice in *.
  destruct (_ && _); [injection H as ->; reflexivity|discriminate].
Qed.

(** Boundaries of a piece. *)
Lemma boundary_piece p m q x :
  is_boundary (p ++ m ++ q) x = true -> blen p <= x -> x <= blen p + blen m ->
  is_boundary m (x - blen p) = true.
Proof.
  intros H H1 H2. apply is_boundary_spec in H; destruct H as (u & v & E & ->).
  destruct (blen_prefix_cmp p (m ++ q) u v E H1) as (w & -> & E2).
  rewrite blen_app in *. symmetry in E2.
  destruct (blen_prefix_cmp w v m q E2 ltac:(lia)) as (w' & -> & _).
  apply is_boundary_spec. exists w, w'. split; [reflexivity|lia].
Qed.

Definition shift_al (k : nat) (a : nat * nat) : nat * nat := (fst a - k, snd a - k).
Definition shift_cal (k : nat) (cal : cals) : cals := map (fun ca => (fst ca, shift_al k (snd ca))) cal.

Lemma ctext_shift k cal : ctext (shift_cal k cal) = ctext cal.
Proof. unfold ctext, shift_cal; rewrite map_map; reflexivity. Qed.

Lemma cbytes_shift k cal : cbytes (shift_cal k cal) = map (shift_al k) (cbytes cal).
Proof.
  induction cal as [|[c a] cal IH]; [reflexivity|].
  cbn [shift_cal map]. rewrite !cbytes_cons, map_app; cbn [fst snd].
  unfold shift_cal in IH; rewrite IH. f_equal. clear. induction (len_utf8 c); cbn; [reflexivity|]. f_equal; assumption.
Qed.

Lemma map_res_shift k al :
  Forall (fun a => k <= fst a /\ k <= snd a) al -> map_res (shift_alignment k) al = Ok (map (shift_al k) al).
Proof.
  induction al as [|a al IH]; intros H; [reflexivity|]. inversion H; subst.
  cbn [map_res map]. unfold shift_alignment at 1. replace (_ && _) with true by lia.
  cbn [bind]. rewrite IH by assumption. reflexivity.
Qed.

Lemma wf_shift orig u piece v cal :
  orig = u ++ piece ++ v -> wf_cal orig cal ->
  Forall (fun a => blen u <= fst a /\ snd a <= blen u + blen piece) (map snd cal) ->
  wf_cal piece (shift_cal (blen u) cal).
Proof.
  intros -> [W1 W2] F. unfold shift_cal. split; rewrite map_map; cbn [snd];
    change (fun x : N * (nat * nat) => shift_al (blen u) (snd x))
      with (fun x : N * (nat * nat) => shift_al (blen u) (snd x)); rewrite <- (map_map snd (shift_al (blen u))).
  - apply Forall_map. rewrite Forall_forall in *. intros a Ha.
    destruct (W1 a Ha) as (A & B & C). destruct (F a Ha) as [D E].
    unfold okal, shift_al; cbn [fst snd]. split; [lia|].
    split; eapply boundary_piece; eauto; lia.
  - revert W2. generalize (map snd cal); clear. induction l as [|a l IH]; intros H; [constructor|].
    apply sorted_cons_inv in H; destruct H as [H1 H2]. cbn [map]. apply sorted_cons; [apply IH; exact H1|].
    intros b Hb. apply in_map_iff in Hb; destruct Hb as (b' & <- & Hb). specialize (H2 _ Hb).
    unfold ale, shift_al in *; cbn [fst snd]; lia.
Qed.

Lemma wf_sub orig p m q : wf_cal orig (p ++ m ++ q) -> wf_cal orig m.
Proof.
  intros [W1 W2]. rewrite !map_app in *. apply sorted_app_inv in W2; destruct W2 as (_ & W2 & _).
  apply sorted_app_inv in W2. rewrite !Forall_app in W1. split; [apply W1|apply W2].
Qed.

Lemma expand_cbytes c a m :
  expand_alignments (cbytes ((c, a) :: m)) = Some (fst a, snd (last_al a m)).
Proof.
  rewrite cbytes_cons; cbn [fst snd]. pose proof (len_utf8_pos c).
  destruct (len_utf8 c) as [|n] eqn:En; [lia|]. cbn [repeat app expand_alignments]. f_equal. f_equal. f_equal.
  assert (G : forall d, last (cbytes m) d = last_al d m).
  { clear. induction m as [|[c b] m IH]; intros d; [reflexivity|].
    rewrite cbytes_cons, last_al_cons; cbn [fst snd].
    pose proof (len_utf8_pos c). rewrite <- IH. destruct (len_utf8 c) as [|n]; [lia|]. clear.
    cbn [repeat app]. revert d. induction n as [|n IHn]; intros d.
    - cbn [repeat app]. destruct (cbytes m); [reflexivity|].
      clear. revert d b p. induction l as [|x l IH]; intros; [reflexivity|]. apply (IH d b x).
    - cbn [repeat app]. apply (IHn d). }
  rewrite <- G. clear G.
  change (a :: repeat a n ++ cbytes m) with ((a :: repeat a n) ++ cbytes m).
  clear. induction n as [|n IH].
  - cbn [repeat app]. destruct (cbytes m) as [|x l]; [reflexivity|].
    cbn [last]. reflexivity.
  - cbn [repeat app] in *. exact IH.
Qed.

Lemma convert_normalized orig sh p c a m q :
  convert_offsets (show orig (p ++ ((c, a) :: m) ++ q) sh)
                  (rn (blen (ctext p)) (blen (ctext p) + blen (ctext ((c, a) :: m))))
  = Some (fst a, snd (last_al a m)).
Proof.
  unfold convert_offsets, rn. cbn [full_range].
  pose proof (len_utf8_pos c).
  assert (Hpos : 0 < blen (ctext ((c, a) :: m))) by (rewrite ctext_cons; cbn [fst blen]; lia).
  replace (_ =? _) with false by lia. replace (_ <? _) with false by lia.
  replace (blen (ctext p) + blen (ctext ((c, a) :: m)) =? 0) with false by lia.
  rewrite !Bool.andb_false_r. cbn [n_alignments show].
  rewrite get_range_cal. apply expand_cbytes.
Qed.

Lemma sorted_first_last orig c a m : wf_cal orig ((c, a) :: m) ->
  forall b, In b (map snd ((c, a) :: m)) -> ale a b /\ ale b (last_al a m).
Proof.
  intros [_ H] b Hb. cbn [map snd] in *. split.
  - destruct Hb as [<- | Hb]; auto. apply sorted_cons_inv in H; apply H; exact Hb.
  - unfold last_al. pose proof (sorted_last (a :: map snd m) a b H Hb) as G.
    destruct (map snd m); [exact G|]. exact G.
Qed.

Lemma okal_last orig c a m : wf_cal orig ((c, a) :: m) -> okal orig a /\ okal orig (last_al a m).
Proof.
  intros [W _]. rewrite Forall_forall in W. split; apply W; cbn [map snd].
  - left; reflexivity.
  - apply last_al_In.
Qed.

(** A non-empty slice in the normalised referential. *)
Lemma slice_normalized orig sh p c a m q :
  wf_cal orig (p ++ ((c, a) :: m) ++ q) ->
  exists u piece v,
    orig = u ++ piece ++ v /\ blen u = fst a /\ blen u + blen piece = snd (last_al a m) /\
    wf_cal piece (shift_cal (blen u) ((c, a) :: m)) /\
    n_slice (show orig (p ++ ((c, a) :: m) ++ q) sh)
            (rn (blen (ctext p)) (blen (ctext p) + blen (ctext ((c, a) :: m))))
    = Ok (show piece (shift_cal (blen u) ((c, a) :: m)) (sh + blen u)).
Proof.
  intros W. pose proof (wf_sub _ _ _ _ W) as Wm. pose proof (sorted_first_last _ _ _ _ Wm) as S.
  destruct (okal_last _ _ _ _ Wm) as [(A1 & A2 & A3) (B1 & B2 & B3)].
  assert (Hle : fst a <= snd (last_al a m)).
  { destruct (S (last_al a m)) as [[S1 S2] _]; [|lia]. cbn [map snd]. apply last_al_In. }
  destruct (str_get orig (fst a) (snd (last_al a m))) as [piece|] eqn:Eg.
  2:{ exfalso. apply str_get_none_iff in Eg. apply Eg; auto. }
  pose proof Eg as Eg'. apply str_get_inv in Eg'; destruct Eg' as (u & v & Eo & Eu & Ev).
  exists u, piece, v. rewrite <- Eu. split; [exact Eo|]. split; [reflexivity|]. split; [lia|].
  assert (Wp : wf_cal piece (shift_cal (fst a) ((c, a) :: m))).
  { rewrite Eu. apply (wf_shift orig u piece v); auto. apply Forall_forall; intros b Hb.
    destruct (S b Hb) as [[S1 S2] [S3 S4]]. lia. }
  split; [exact Wp|].
  set (M := (c, a) :: m) in *. set (cal := p ++ M ++ q) in *.
  unfold n_slice, validate_range. cbn [rn full_range n_normalized show].
  assert (Hb : is_boundary (ctext cal) (blen (ctext p)) = true
               /\ is_boundary (ctext cal) (blen (ctext p) + blen (ctext M)) = true).
  { unfold cal; rewrite !ctext_app. split; apply is_boundary_spec.
    - exists (ctext p), (ctext M ++ ctext q); auto.
    - exists (ctext p ++ ctext M), (ctext q). rewrite <- app_assoc, blen_app; auto. }
  destruct Hb as [-> ->]. cbn [andb].
  pose proof (convert_normalized orig sh p c a m q) as C. fold M cal in C. unfold show in C. fold (show orig cal sh) in *.
  unfold rn in *. rewrite C. cbn [full_range fst snd n_alignments show n_shift].
  unfold cal at 1. rewrite get_range_cal.
  rewrite map_res_shift.
  2:{ apply Forall_cbytes with (P := fun x => fst a <= fst x /\ fst a <= snd x).
      apply Forall_forall; intros ca Hca. destruct (S (snd ca) (in_map snd _ _ Hca)) as [[S1 S2] _].
      destruct Wm as [Wm _]. rewrite Forall_forall in Wm. destruct (Wm (snd ca) (in_map snd _ _ Hca)) as [W1 _]. lia. }
  cbn [bind]. unfold n_get_range_original, n_get_range. rewrite C. cbn [n_original show full_range n_normalized].
  rewrite Eg. cbn [unwrap_or_default].
  unfold cal. rewrite !ctext_app, str_get_app. cbn [unwrap_or_default].
  unfold show. rewrite ctext_shift, cbytes_shift. reflexivity.
Qed.

(** Ranges that are not valid. *)
Lemma slice_normalized_inv orig cal sh a b ns' :
  wf_cal orig cal -> n_slice (show orig cal sh) (rn a b) = Ok ns' ->
  exists p m q, cal = p ++ m ++ q /\ a = blen (ctext p) /\ b = blen (ctext p) + blen (ctext m).
Proof.
  intros W H. unfold n_slice, validate_range in H. cbn [rn full_range n_normalized show] in H.
  destruct (is_boundary (ctext cal) a) eqn:Ea; [|discriminate].
  destruct (is_boundary (ctext cal) b) eqn:Eb; [|discriminate]. cbn [andb] in H.
  destruct (Nat.le_gt_cases a b) as [Hab|Hab].
  - destruct (str_get (ctext cal) a b) as [t|] eqn:Eg.
    + apply str_get_inv in Eg; destruct Eg as (x & y & E & -> & ->).
      apply ctext_split3 in E; destruct E as (p & m & q & -> & <- & <- & <-). exists p, m, q; auto.
    + exfalso; apply str_get_none_iff in Eg; auto.
  - exfalso. unfold convert_offsets in H; cbn [rn full_range] in H.
    replace (a =? b) with false in H by lia. replace (b <? a) with true in H by lia. discriminate.
Qed.

Lemma slice_empty orig cal sh a ns' :
  n_slice (show orig cal sh) (rn a a) = Ok ns' -> ns' = show [] [] (sh + a).
Proof.
  unfold n_slice, validate_range. cbn [rn full_range n_normalized show].
  destruct (is_boundary (ctext cal) a) eqn:Ea; [|discriminate]. cbn [andb].
  unfold convert_offsets at 1, rn at 1. cbn [full_range]. rewrite Nat.eqb_refl.
  unfold rn at 1. cbn [full_range fst snd n_alignments show n_shift].
  unfold get_range. rewrite Nat.leb_refl, Nat.sub_diag; cbn [andb firstn].
  destruct (a <=? _); [|discriminate]. cbn [map_res bind]. intros H; injection H as <-.
  unfold show; cbn. f_equal.
  - unfold n_get_range_original, convert_offsets, rn; cbn [full_range n_original]. rewrite Nat.eqb_refl.
    destruct (str_get orig a a) as [t|] eqn:E; [|reflexivity].
    apply str_get_inv in E; destruct E as (x & y & _ & Ex & E). cbn. apply blen_0; lia.
  - unfold n_get_range, rn; cbn [full_range n_normalized].
    destruct (str_get (ctext cal) a a) as [t|] eqn:E; [|reflexivity].
    apply str_get_inv in E; destruct E as (x & y & _ & Ex & E). cbn. apply blen_0; lia.
Qed.

(** A non-empty slice in the original referential. *)
Lemma slice_original orig sh ts te z m q u piece v :
  wf_cal orig (z ++ m ++ q) -> zones ts te z m q -> ts < te ->
  orig = u ++ piece ++ v -> ts = blen u -> te = blen u + blen piece ->
  n_slice (show orig (z ++ m ++ q) sh) (ro ts te)
  = match z ++ m with [] => Err tt | _ => Ok (show piece (shift_cal ts m) (sh + ts)) end
  /\ wf_cal piece (shift_cal ts m).
Proof.
  intros W Z Ht Eo Ets Ete. set (cal := z ++ m ++ q) in *.
  assert (Hm : Forall (fun a => ts <= fst a /\ snd a <= te) (map snd m)).
  { destruct Z as (Z1 & _ & Z3 & _). apply Forall_app in Z1; destruct Z1 as [_ Z1].
    destruct m as [|[c a] m]; [constructor|]. pose proof (wf_sub _ _ _ _ W) as Wm.
    apply Forall_forall; intros b Hb. destruct (sorted_first_last _ _ _ _ Wm b Hb) as [[S1 S2] _].
    cbn [snd] in Z3. unfold wide in Z3. apply in_map_iff in Hb. destruct Hb as (cb & <- & Hb).
    rewrite Forall_forall in Z1; specialize (Z1 _ Hb). lia. }
  assert (Wp : wf_cal piece (shift_cal ts m)).
  { rewrite Ets. apply (wf_shift orig u piece v); auto; [exact (wf_sub _ _ _ _ W)|].
    eapply Forall_impl; [|exact Hm]. cbn beta; intros; lia. }
  split; [|exact Wp].
  unfold n_slice, validate_range. cbn [ro full_range n_original show].
  assert (Hb : is_boundary orig ts = true /\ is_boundary orig te = true).
  { split; apply is_boundary_spec; [exists u, (piece ++ v); auto|exists (u ++ piece), v].
    rewrite <- app_assoc, blen_app; auto. }
  destruct Hb as [-> ->]. cbn [andb].
  pose proof (convert_original orig cal sh ts te z m q eq_refl Z Ht) as C.
  fold (show orig cal sh) in *. unfold ro in *. rewrite C.
  destruct (z ++ m) as [|x l] eqn:Ezm; [reflexivity|].
  cbn [full_range fst snd n_alignments show n_shift].
  unfold cal at 1. rewrite get_range_cal. rewrite map_res_shift.
  2:{ apply Forall_cbytes with (P := fun x => ts <= fst x /\ ts <= snd x).
      apply Forall_forall; intros ca Hca. rewrite Forall_forall in Hm. specialize (Hm (snd ca) (in_map snd _ _ Hca)).
      destruct (wf_sub _ _ _ _ W) as [Wm _]. rewrite Forall_forall in Wm. destruct (Wm (snd ca) (in_map snd _ _ Hca)) as [W1 _]. lia. }
  cbn [bind]. unfold n_get_range_original, n_get_range. rewrite C. cbn [n_original show full_range n_normalized].
  rewrite Eo at 1. rewrite Ets at 1. rewrite Ete at 1. rewrite str_get_app. cbn [unwrap_or_default].
  unfold cal. rewrite !ctext_app, str_get_app. cbn [unwrap_or_default].
  unfold show. rewrite ctext_shift, cbytes_shift. reflexivity.
Qed.

Lemma slice_original_empty orig cal sh a ns' :
  n_slice (show orig cal sh) (ro a a) = Ok ns' -> ns' = show [] [] (sh + a).
Proof.
  unfold n_slice, validate_range. cbn [ro full_range n_original show].
  destruct (is_boundary orig a) eqn:Ea; [|discriminate]. cbn [andb].
  unfold convert_offsets at 1, ro at 1. cbn [full_range]. rewrite Nat.eqb_refl.
  unfold ro at 1. cbn [full_range fst snd n_alignments show n_shift].
  unfold get_range. rewrite Nat.leb_refl, Nat.sub_diag; cbn [andb firstn].
  destruct (a <=? _); [|discriminate]. cbn [map_res bind]. intros H; injection H as <-.
  unfold show; cbn. f_equal.
  - unfold n_get_range_original, ro; cbn [full_range n_original].
    destruct (str_get orig a a) as [t|] eqn:E; [|reflexivity].
    apply str_get_inv in E; destruct E as (x & y & _ & Ex & E). cbn. apply blen_0; lia.
  - unfold n_get_range, ro, convert_offsets; cbn [full_range n_normalized]. rewrite Nat.eqb_refl.
    destruct (str_get (ctext cal) a a) as [t|] eqn:E; [|reflexivity].
    apply str_get_inv in E; destruct E as (x & y & _ & Ex & E). cbn. apply blen_0; lia.
Qed.

Lemma slice_eq_full ns r :
  n_slice ns r = n_slice ns (match r with
                             | ROriginal s e => let '(a, b) := full_range s e (n_len_original ns) in ro a b
                             | RNormalized s e => let '(a, b) := full_range s e (n_len ns) in rn a b
                             end).
Proof.
  destruct r as [s e|s e]; unfold n_slice, validate_range; cbn [full_range ro rn]; reflexivity.
Qed.

Lemma slice_wf orig cal sh r :
  wf_cal orig cal ->
  match n_slice (show orig cal sh) r with
  | Ok ns' => exists orig' cal' sh', ns' = show orig' cal' sh' /\ wf_cal orig' cal'
  | Err _ => True
  | Panic => False
  end.
Proof.
  intros W. rewrite slice_eq_full. destruct r as [s e|s e];
    destruct (full_range s e _) as [a b] eqn:Er; clear Er s e.
  - destruct (Nat.lt_trichotomy a b) as [Hab|[<- | Hab]].
    + destruct (zones_exist a b cal) as (z & m & q & -> & Z).
      unfold n_slice at 1, validate_range at 1. cbn [ro full_range n_original show].
      destruct (is_boundary orig a && is_boundary orig b) eqn:Eb.
      2:{ exact I. }
      fold (validate_range (show orig (z ++ m ++ q) sh) (ro a b)).
      apply andb_true_iff in Eb; destruct Eb as [Ea Eb].
      destruct (str_get orig a b) as [piece|] eqn:Eg.
      2:{ apply str_get_none_iff in Eg; exfalso; apply Eg; auto with arith. }
      apply str_get_inv in Eg; destruct Eg as (u & v & Eo & Eu & Ev).
      destruct (slice_original orig sh a b z m q u piece v W Z Hab Eo Eu Ev) as [H1 H2].
      unfold n_slice, validate_range in H1. cbn [ro full_range n_original show] in H1.
      rewrite Ea, Eb in H1. cbn [andb] in H1. rewrite H1.
      destruct (z ++ m); [exact I|]. eauto.
    + destruct (n_slice _ _) as [ns'|e|] eqn:E; [|exact I|].
      * apply slice_original_empty in E; subst. exists [], [], (sh + a). split; [reflexivity|split; constructor].
      * unfold n_slice, validate_range in E. cbn [ro full_range n_original show] in E.
        destruct (_ && _); [|discriminate]. unfold convert_offsets at 1, ro at 1 in E. cbn [full_range] in E.
        rewrite Nat.eqb_refl in E. unfold ro at 1 in E; cbn [full_range fst snd n_alignments show] in E.
        unfold get_range in E. rewrite Nat.leb_refl, Nat.sub_diag in E; cbn [andb firstn] in E.
        destruct (a <=? _); discriminate.
    + unfold n_slice, validate_range. cbn [ro full_range n_original show].
      destruct (_ && _); [|exact I]. unfold convert_offsets, ro; cbn [full_range].
      replace (a =? b) with false by lia. replace (b <? a) with true by lia. exact I.
  - destruct (n_slice (show orig cal sh) (rn a b)) as [ns'|e|] eqn:E; [|exact I|].
    + destruct (slice_normalized_inv _ _ _ _ _ _ W E) as (p & m & q & -> & -> & ->).
      destruct m as [|[c x] m].
      * cbn [ctext map blen] in E. rewrite Nat.add_0_r in E. apply slice_empty in E. subst.
        exists [], [], (sh + blen (ctext p)). split; [reflexivity|split; constructor].
      * destruct (slice_normalized orig sh p c x m q W) as (u & piece & v & _ & _ & _ & W' & H).
        rewrite H in E. injection E as <-. eauto.
    + (* no panic *)
      unfold n_slice, validate_range in E. cbn [rn full_range n_normalized show] in E.
      destruct (is_boundary (ctext cal) a) eqn:Ea; [|discriminate].
      destruct (is_boundary (ctext cal) b) eqn:Eb; [|discriminate]. cbn [andb] in E.
      destruct (Nat.lt_trichotomy a b) as [Hab|[<- | Hab]].
      * destruct (str_get (ctext cal) a b) as [t|] eqn:Eg.
        -- apply str_get_inv in Eg; destruct Eg as (x & y & Et & -> & ->).
           apply ctext_split3 in Et; destruct Et as (p & m & q & -> & <- & <- & <-).
           destruct m as [|[c x] m]; [cbn in Hab; lia|].
           destruct (slice_normalized orig sh p c x m q W) as (u & piece & v & _ & _ & _ & W' & H).
           unfold n_slice, validate_range in H. cbn [rn full_range n_normalized show] in H.
           rewrite Ea, Eb in H. cbn [andb] in H. rewrite H in E; discriminate.
        -- apply str_get_none_iff in Eg; apply Eg; auto with arith.
      * unfold convert_offsets at 1, rn at 1 in E. cbn [full_range] in E.
        rewrite Nat.eqb_refl in E. unfold rn at 1 in E; cbn [full_range fst snd n_alignments show] in E.
        unfold get_range in E. rewrite Nat.leb_refl, Nat.sub_diag in E; cbn [andb firstn] in E.
        destruct (a <=? _); discriminate.
      * unfold convert_offsets, rn in E; cbn [full_range] in E.
        replace (a =? b) with false in E by lia. replace (b <? a) with true in E by lia. discriminate.
Qed.
