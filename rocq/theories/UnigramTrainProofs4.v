(** The E step. *)
From Coq Require Import Permutation Sorted Ring_theory.
From Verif Require Import Base StrBytes ListFacts AMap Utf8 EncodingModel BpeModel UnigramModel UnigramSpec UnigramProofs UnigramProofs2 UnigramProofs3 UnigramProps NBestSpec NBestProps MarginalModel MarginalSpec MarginalProps TrainersModel UnigramTrainModel UnigramTrainSpec UnigramTrainProofs3.

Section e_step.
  Context {W : Type} (A : arith W) (T : tarith W) (m : unigram W) (Hm : made A m) (u : N) (Hu : u_unk m = Some u).
  Notation M := (t_marith A T).

  Lemma any_covered s : covered m s.
  Proof. left. eauto. Qed.

  (** A word whose likelihood is not a number. *)
  Definition nan_word (wc : list (str * N)) : Prop :=
    exists s n la e e' z, In (s, n) wc /\ populate_nodes A m s = Ok la /\ populate_marginal A M la (ta_of T n) e = Ok (e', z) /\ ta_is_nan T z = true.

  Lemma e_chunk_any sentences : Forall (fun e => text_ok (fst e)) sentences -> forall expected, length (u_vocab m) <= length expected ->
    (exists e', e_chunk A T m sentences expected = Ok e' /\ length e' = length expected) \/ (e_chunk A T m sentences expected = Panic /\ nan_word sentences).
  Proof.
    induction 1 as [|[s n] sentences Hs F IH]; intros expected L; cbn [e_chunk]; [left; eauto|]. cbn [fst] in Hs.
    destruct (C74_total A M m s (ta_of T n) expected Hm Hs L) as (la & e1 & z & E1 & E2 & L1). rewrite E1. cbn [bind]. rewrite E2. cbn [bind fst snd]. destruct (ta_is_nan T z) eqn:EZ.
    - right. split; [reflexivity|]. exists s, n, la, expected, e1, z. split; [left; reflexivity|]. auto.
    - destruct (search_free A m s Hm Hs (any_covered s)) as (la' & L' & nodes & path & seg & E3 & _ & _ & _ & EV & _). rewrite E1 in E3. injection E3 as <-. rewrite EV. cbn [bind].
      destruct (IH e1 ltac:(lia)) as [(e' & E' & L2)|[E' (s' & n' & X)]]; [left; exists e'; split; [exact E'|lia]|right; split; [exact E'|]]. exists s', n'. destruct X as (la' & e & e2 & z' & I & X). exists la', e, e2, z'. split; [right; exact I|exact X].
  Qed.

  Lemma in_chunks {X} fuel n (l : list X) : 0 < n -> length l <= fuel -> forall ch x, In ch (chunks_of fuel n l) -> In x ch -> In x l.
  Proof. intros Hn L ch x H1 H2. rewrite <- (chunks_concat n Hn fuel l L). apply in_concat. eauto. Qed.

  Context (threads : nat) (plan : nat -> rtree) (wc : list (str * N)) (Hwc : Forall (fun e => text_ok (fst e)) wc).

  Theorem e_step_total step : (exists e, run_e_step A T threads plan step m wc = Ok e /\ length e = length (u_vocab m)) \/ (run_e_step A T threads plan step m wc = Panic /\ nan_word wc).
  Proof.
    unfold run_e_step. set (zeros := repeat (a_zero A) (length (u_vocab m))). assert (LZ : length zeros = length (u_vocab m)) by apply repeat_length.
    assert (IN : forall ch x, In ch (chunks threads wc) -> In x ch -> In x wc) by (intros ch x; apply in_chunks; lia).
    assert (G : forall l, (forall ch, In ch l -> Forall (fun e => text_ok (fst e)) ch /\ forall x, In x ch -> In x wc) ->
      (exists parts, collect (fun ch => e_chunk A T m ch zeros) l = Ok parts /\ Forall (fun v => length v = length (u_vocab m)) parts) \/ (collect (fun ch => e_chunk A T m ch zeros) l = Panic /\ nan_word wc)).
    { induction l as [|ch l IH]; intros H; cbn [collect]; [left; exists []; auto|]. destruct (H ch (or_introl eq_refl)) as [H1 H2]. destruct (e_chunk_any ch H1 zeros ltac:(lia)) as [(e' & E' & L2)|[E' (s & n & la & e & e2 & z & I & X)]]; rewrite E'; cbn [bind].
      - destruct IH as [(parts & E & FP)|[E NW]]; [intros; apply H; right; assumption| |]; rewrite E; cbn [bind]; [left; exists (e' :: parts); split; [reflexivity|constructor; [lia|exact FP]]|right; auto].
      - right. split; [reflexivity|]. exists s, n, la, e, e2, z. split; [apply H2; exact I|exact X]. }
    destruct (G (chunks threads wc)) as [(parts & E & FP)|[E NW]].
    - intros ch Hch. split; [|intros x Hx; eapply IN; eauto]. apply Forall_forall. intros x Hx. rewrite Forall_forall in Hwc. apply Hwc. eapply IN; eauto.
    - rewrite E. cbn [bind]. left. eexists. split; [reflexivity|]. apply (reduce_P zeros (zip_with (a_add A)) (fun v => length v = length (u_vocab m))); [exact LZ| |exact FP]. intros a b La Lb. rewrite zip_with_length. lia.
    - rewrite E. cbn [bind]. right. auto.
  Qed.

  (** *** Exact arithmetic *)
  Context (one : W) (inv : W -> W) (HX : exact_marith A M (a_zero A) one inv).
  Context (segs : str -> list (list (str * N * W))) (Hsegs : Forall (fun e => all_segmentations A m (fst e) (segs (fst e))) wc).
  Context (Hnan : forall n x, ta_is_nan T (ta_mul T (ta_of T n) x) = false).
  Context (Hapart : Forall (fun e => unk_apart m (fst e)) wc).

  (** What a word adds to the count of a token. *)
  Definition share (id : nat) (e : str * N) : W :=
    ta_mul T (ta_of T (snd e)) (ta_mul T (weighted_count M (a_zero A) one (N.of_nat id) (segs (fst e))) (inv (evidence M (a_zero A) one (segs (fst e))))).

  Lemma add_assoc a b c : a_add A a (a_add A b c) = a_add A (a_add A a b) c.
  Proof. apply (SRadd_assoc (xm_ring _ _ _ _ _ HX)). Qed.
  Lemma add_zero_l a : a_add A (a_zero A) a = a.
  Proof. apply (SRadd_0_l (xm_ring _ _ _ _ _ HX)). Qed.
  Lemma add_zero_r a : a_add A a (a_zero A) = a.
  Proof. change (ma_plus M a (a_zero A) = a). rewrite (SRadd_comm (xm_ring _ _ _ _ _ HX)). apply (SRadd_0_l (xm_ring _ _ _ _ _ HX)). Qed.

  Lemma e_chunk_exact sentences : Forall (fun e => text_ok (fst e)) sentences -> Forall (fun e => unk_apart m (fst e)) sentences -> Forall (fun e => all_segmentations A m (fst e) (segs (fst e))) sentences -> forall expected, length (u_vocab m) = length expected ->
    exists e', e_chunk A T m sentences expected = Ok e' /\ length e' = length expected /\
      forall id, id < length expected -> nth id e' (a_zero A) = a_add A (nth id expected (a_zero A)) (fold_right (a_add A) (a_zero A) (map (share id) sentences)).
  Proof.
    induction 1 as [|[s n] sentences Hs F IH]; intros FA FG expected L; cbn [e_chunk].
    - exists expected. split; [reflexivity|]. split; [reflexivity|]. intros id Hid. cbn. symmetry. apply add_zero_r.
    - inversion FA as [|? ? HA FA']; subst. inversion FG as [|? ? HG FG']; subst. cbn [fst] in *. destruct (search_free A m s Hm Hs (any_covered s)) as (la & L' & nodes & path & seg & E3 & _ & _ & _ & EV & _).
      destruct (C74_expected A M (a_zero A) one inv m s la (segs s) (ta_of T n) expected HX Hm Hs (any_covered s) HA HG E3 ltac:(lia)) as (e1 & z & E1 & _ & L1 & V).
      rewrite E3. cbn [bind]. rewrite E1. cbn [bind fst snd]. change (ma_scale M (ta_of T n) z) with (ta_mul T (ta_of T n) z). rewrite Hnan, EV. cbn [bind].
      destruct (IH FA' FG' e1 ltac:(lia)) as (e' & E' & L2 & V'). exists e'. split; [exact E'|]. split; [lia|]. intros id Hid. rewrite V' by lia. cbn [map fold_right]. rewrite add_assoc. f_equal.
      assert (K : nth_error expected id = Some (nth id expected (a_zero A))) by (apply nth_error_nth'; exact Hid). specialize (V (N.of_nat id) (nth id expected (a_zero A))). rewrite Nat2N.id in V. specialize (V K).
      apply nth_error_nth with (d := a_zero A) in V. rewrite V. reflexivity.
  Qed.

  Theorem e_step_exact step : leaves (plan step) = length (chunks threads wc) ->
    exists e, run_e_step A T threads plan step m wc = Ok e /\ length e = length (u_vocab m) /\ forall id, id < length (u_vocab m) -> nth id e (a_zero A) = fold_right (a_add A) (a_zero A) (map (share id) wc).
  Proof.
    intros LV. unfold run_e_step. set (zeros := repeat (a_zero A) (length (u_vocab m))). assert (LZ : length zeros = length (u_vocab m)) by apply repeat_length.
    assert (IN : forall ch x, In ch (chunks threads wc) -> In x ch -> In x wc) by (intros ch x; apply in_chunks; lia).
    destruct (collect_total (fun ch => e_chunk A T m ch zeros) (chunks threads wc) (fun ch v => length v = length (u_vocab m) /\ forall id, id < length (u_vocab m) -> nth id v (a_zero A) = fold_right (a_add A) (a_zero A) (map (share id) ch))) as (parts & E & F).
    { intros ch Hch. destruct (e_chunk_exact ch) with (expected := zeros) as (e' & E' & L' & V').
      - apply Forall_forall. intros x Hx. rewrite Forall_forall in Hwc. apply Hwc. eapply IN; eauto.
      - apply Forall_forall. intros x Hx. rewrite Forall_forall in Hapart. apply Hapart. eapply IN; eauto.
      - apply Forall_forall. intros x Hx. rewrite Forall_forall in Hsegs. apply Hsegs. eapply IN; eauto.
      - lia.
      - exists e'. split; [exact E'|]. split; [lia|]. intros id Hid. rewrite V' by lia. unfold zeros. rewrite nth_repeat. apply add_zero_l. }
    rewrite E. cbn [bind]. eexists. split; [reflexivity|].
    assert (FL : Forall (fun v => length v = length (u_vocab m)) parts) by (clear - F; induction F as [|? ? ? ? [H _] F IH]; constructor; assumption).
    rewrite (reduce_all zeros (zip_with (a_add A)) (fun v => length v = length (u_vocab m))).
    - split.
      + clear - FL LZ. induction FL as [|v vs Lv FL IH]; [exact LZ|]. cbn [fold_right]. rewrite zip_with_length, IH. lia.
      + intros id Hid. destruct (fold_zip_nth (a_add A) (a_zero A) (length (u_vocab m)) id Hid parts FL) as [V _]. unfold zeros. rewrite V.
        assert (EC : concat (chunks threads wc) = wc) by (apply chunks_concat; lia). rewrite <- EC at 1. clear - F Hid HX. induction F as [|ch v chs vs [Lv Hv] F IH]; [reflexivity|]. cbn [map fold_right concat]. rewrite Hv by exact Hid. rewrite map_app.
        rewrite (fold_app (a_zero A) (a_add A) (fun _ => True)); [|exact I|auto|intros; apply add_zero_l|intros; apply add_assoc|apply Forall_forall; auto|apply Forall_forall; auto]. f_equal. exact IH.
    - exact LZ.
    - intros a b La Lb. rewrite zip_with_length. lia.
    - intros a La. unfold zeros. rewrite <- La. apply zip_with_unit_l. apply add_zero_l.
    - intros a La. unfold zeros. rewrite <- La. apply zip_with_unit_r. apply add_zero_r.
    - intros a b c _ _ _. apply zip_with_assoc. apply add_assoc.
    - rewrite LV. clear - F. induction F; cbn; congruence.
    - exact FL.
  Qed.
End e_step.
