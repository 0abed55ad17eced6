From Verif Require Import Base EncodingModel EncodingSpec EncodingProofs EncodingProofs2 TruncPadModel.

Lemma kept_length {A} d n (l : list A) : length (kept d n l) = Nat.min n (length l).
Proof. destruct d; cbn [kept]; [rewrite skipn_length|rewrite firstn_length]; lia. Qed.

Lemma kept_all {A} d n (l : list A) : length l <= n -> kept d n l = l.
Proof.
  intros H; destruct d; cbn [kept]; [replace (length l - n) with 0 by lia; reflexivity|].
  apply firstn_all2; exact H.
Qed.

Lemma skipn_rev' {A} n (l : list A) : skipn (length l - n) l = rev (firstn n (rev l)).
Proof. rewrite firstn_rev, rev_involutive; reflexivity. Qed.

Lemma truncate_rows e n st d e' :
  same_lengths e -> truncate e n st d = Ok e' -> rows e' = kept d n (rows e) /\ same_lengths e'.
Proof.
  intros Hs Ht; pose proof (rows_length e Hs) as Hl.
  destruct (Nat.le_gt_cases (enc_len e) n) as [Hle|Hgt].
  { unfold truncate in Ht; unfold enc_len in Hle.
    destruct (Nat.leb_spec (length (ids e)) n); [|lia]. inversion Ht; subst.
    rewrite kept_all; [auto|]. unfold enc_len in *; lia. }
  destruct (Nat.eq_dec n 0) as [->|Hm].
  { unfold truncate in Ht; unfold enc_len in Hgt.
    destruct (Nat.leb_spec (length (ids e)) 0); [lia|]. cbn [Nat.eqb] in Ht.
    inversion Ht; subst. split; [|repeat split].
    symmetry; apply length_zero_iff_nil; rewrite kept_length; reflexivity. }
  destruct (Nat.lt_ge_cases st n) as [Hst|Hst].
  - destruct (truncate_main e n st d) as (e2 & H2 & H3 & H4 & H5 & H6); [exact Hs|lia|lia|lia|].
    rewrite H2 in Ht; inversion Ht; subst e2; split; [|exact H3].
    destruct d; [unfold tiles_from_end in H6|]; destruct H6 as ((w & rest & Heq & Hw & _) & _).
    + cbn [map] in Heq; injection Heq as Hw2 _. rewrite <- Hw2 in Hw.
      cbn [kept]; rewrite skipn_rev', <- Hw, rev_involutive; reflexivity.
    + injection Heq as Hw2 _. rewrite <- Hw2 in Hw; exact Hw.
  - assert (Hpan : truncate e n st d = Panic) by (apply truncate_panic_iff; [exact Hs|lia]).
    rewrite Hpan in Ht; discriminate.
Qed.

Lemma lift_res_ok {E A} (r : res unit A) a : @lift_res E A r = Ok a -> r = Ok a.
Proof. destruct r; cbn; intros H; inversion H; reflexivity. Qed.

Lemma longest_first_sum l1 l2 mx :
  mx < l1 + l2 ->
  let '(k1, k2) := longest_first_lengths l1 l2 mx in
  k1 + k2 = mx /\ k1 <= l1 /\ k2 <= l2 /\
  (k1 < l1 -> k2 <= k1 + 1) /\ (k2 < l2 -> k1 <= k2 + 1).
Proof.
  intros H; unfold longest_first_lengths.
  pose proof (Nat.div_mod mx 2 ltac:(lia)) as Hd.
  pose proof (Nat.mod_upper_bound mx 2 ltac:(lia)) as Hm.
  destruct (Nat.ltb_spec l2 l1);
  [destruct (Nat.ltb_spec mx l2)|destruct (Nat.ltb_spec mx l1)];
  match goal with |- context [mx <? ?x] => destruct (Nat.ltb_spec mx x) end; cbn zeta iota; lia.
Qed.

Lemma kept_nil {A} d n : kept d n (@nil A) = [].
Proof. destruct d; cbn [kept]; [apply skipn_nil|apply firstn_nil]. Qed.

Lemma truncate_encodings_rows e pair p e' pair' :
  parallel e -> opt_parallel pair ->
  truncate_encodings e pair p = Ok (e', pair') ->
  exists k1 k2,
    k1 <= enc_len e /\ k2 <= opt_len pair /\
    k1 + k2 = Nat.min (tp_max_length p) (enc_len e + opt_len pair) /\
    rows e' = kept (tp_direction p) k1 (rows e) /\
    opt_rows pair' = kept (tp_direction p) k2 (opt_rows pair) /\
    (pair = None <-> pair' = None) /\
    parallel e' /\ opt_parallel pair' /\
    match tp_strategy p with
    | LongestFirst => (k1 < enc_len e -> k2 <= k1 + 1) /\ (k2 < opt_len pair -> k1 <= k2 + 1)
    | OnlyFirst => 0 < tp_max_length p -> k2 = opt_len pair /\ pair' = pair
    | OnlySecond => 0 < tp_max_length p -> k1 = enc_len e /\ e' = e
    end.
Proof.
  intros Hp Hpp H.
  pose proof (rows_length e (same_lengths_parallel _ Hp)) as Hl.
  assert (Hl2 : length (opt_rows pair) = opt_len pair).
  { destruct pair; [apply rows_length, same_lengths_parallel; exact Hpp|reflexivity]. }
  assert (HT : forall x n x', parallel x ->
            @lift_res trunc_error _ (truncate x n (tp_stride p) (tp_direction p)) = Ok x' ->
            rows x' = kept (tp_direction p) n (rows x) /\ parallel x').
  { intros x n x' Hx Hok; apply lift_res_ok in Hok; split.
    - eapply truncate_rows; [apply same_lengths_parallel; exact Hx|exact Hok].
    - eapply truncate_parallel; eassumption. }
  unfold truncate_encodings in H.
  destruct (Nat.eqb_spec (tp_max_length p) 0) as [Hz|Hz].
  { apply bind_ok in H; destruct H as (e1 & H1 & H2). apply HT in H1; [|exact Hp].
    destruct H1 as [H1 H1']. exists 0, 0.
    assert (Hcommon : 0 <= enc_len e /\ 0 <= opt_len pair /\
      0 + 0 = Nat.min (tp_max_length p) (enc_len e + opt_len pair)) by lia.
    destruct Hcommon as (C1 & C2 & C3).
    destruct pair as [o|].
    - apply bind_ok in H2; destruct H2 as (o1 & H3 & H4). apply HT in H3; [|exact Hpp].
      destruct H3 as [H3 H3']. inversion H4; subst.
      repeat (split; [first [assumption|lia|split; discriminate]|]).
      destruct (tp_strategy p); intros; lia.
    - inversion H2; subst.
      repeat (split; [first [assumption|lia|symmetry; apply kept_nil|split; reflexivity|exact I]|]).
      destruct (tp_strategy p); cbn [opt_len]; intros; lia. }
  destruct (Nat.leb_spec (enc_len e + opt_len pair) (tp_max_length p)) as [Hle|Hgt].
  { inversion H; subst. exists (enc_len e'), (opt_len pair').
    rewrite !kept_all by lia.
    repeat (split; [first [assumption|lia|reflexivity]|]).
    destruct (tp_strategy p); [lia|auto|auto]. }
  destruct (tp_strategy p) eqn:Hstrat.
  - destruct pair as [o|].
    + pose proof (longest_first_sum (enc_len e) (enc_len o) (tp_max_length p) Hgt) as HS.
      destruct (longest_first_lengths (enc_len e) (enc_len o) (tp_max_length p)) as [n1 n2].
      apply bind_ok in H; destruct H as (e1 & H1 & H2). apply HT in H1; [|exact Hp].
      apply bind_ok in H2; destruct H2 as (o1 & H3 & H4). apply HT in H3; [|exact Hpp].
      inversion H4; subst. exists n1, n2. cbn [opt_len opt_rows opt_parallel] in *.
      repeat (split; [first [tauto|lia|split; discriminate]|]). lia.
    + apply bind_ok in H; destruct H as (e1 & H1 & H2). apply HT in H1; [|exact Hp].
      inversion H2; subst. cbn [opt_len opt_rows opt_parallel] in *.
      destruct H1 as [H1 H1'].
      replace (enc_len e + 0 - (enc_len e + 0 - tp_max_length p)) with (tp_max_length p) in H1 by lia.
      exists (tp_max_length p), 0.
      repeat (split; [first [assumption|tauto|lia|symmetry; apply kept_nil]|]). lia.
  - destruct (Nat.ltb_spec (enc_len e + opt_len pair - tp_max_length p) (enc_len e)) as [Hlt|]; [|discriminate].
    apply bind_ok in H; destruct H as (e1 & H1 & H2). apply HT in H1; [|exact Hp].
    inversion H2; subst. destruct H1 as [H1 H1'].
    exists (enc_len e - (enc_len e + opt_len pair' - tp_max_length p)), (opt_len pair').
    rewrite (kept_all _ (opt_len pair')) by lia.
    repeat (split; [first [assumption|tauto|lia|reflexivity]|]). auto.
  - destruct pair as [o|]; [|discriminate]; cbn [opt_len opt_rows opt_parallel] in *.
    destruct (Nat.ltb_spec (enc_len e + enc_len o - tp_max_length p) (enc_len o)) as [Hlt|]; [|discriminate].
    apply bind_ok in H; destruct H as (e1 & H1 & H2). apply HT in H1; [|exact Hpp].
    inversion H2; subst. destruct H1 as [H1 H1'].
    exists (enc_len e'), (enc_len o - (enc_len e' + enc_len o - tp_max_length p)).
    rewrite (kept_all _ (enc_len e')) by lia. cbn [opt_len opt_rows opt_parallel].
    repeat (split; [first [assumption|tauto|lia|reflexivity|split; discriminate]|]). auto.
Qed.

Lemma bind_err {E A B} (r : res E A) (f : A -> res E B) x :
  bind r f = Err x -> r = Err x \/ exists a, r = Ok a /\ f a = Err x.
Proof. destruct r; cbn; intros H; [right; eauto|left; congruence|discriminate]. Qed.

Lemma lift_no_err {E A} (r : res unit A) x : @lift_res E A r <> Err x.
Proof. destruct r; cbn; discriminate. Qed.

(** Errors are exactly the documented situations. *)
Lemma truncate_encodings_err e pair p x :
  truncate_encodings e pair p = Err x <->
  0 < tp_max_length p /\ tp_max_length p < enc_len e + opt_len pair /\
  ((x = SecondSequenceNotProvided /\ tp_strategy p = OnlySecond /\ pair = None) \/
   (x = SequenceTooShort /\ tp_strategy p = OnlyFirst /\ tp_max_length p <= opt_len pair) \/
   (x = SequenceTooShort /\ tp_strategy p = OnlySecond /\ pair <> None /\ tp_max_length p <= enc_len e)).
Proof.
  assert (HL : forall y n, @lift_res trunc_error _ (truncate y n (tp_stride p) (tp_direction p)) <> Err x).
  { intros; apply lift_no_err. }
  unfold truncate_encodings.
  destruct (Nat.eqb_spec (tp_max_length p) 0) as [Hz|Hz].
  { split; [|lia]. intros H; exfalso. apply bind_err in H; destruct H as [H|(e1 & _ & H)]; [eapply HL; exact H|].
    destruct pair; [|discriminate].
    apply bind_err in H; destruct H as [H|(o1 & _ & H)]; [eapply HL; exact H|discriminate]. }
  destruct (Nat.leb_spec (enc_len e + opt_len pair) (tp_max_length p)) as [Hle|Hgt].
  { split; [discriminate|lia]. }
  destruct (tp_strategy p) eqn:Hstrat.
  - split.
    + intros H; exfalso. destruct pair as [o|].
      * destruct (longest_first_lengths (enc_len e) (enc_len o) (tp_max_length p)) as [n1 n2].
        apply bind_err in H; destruct H as [H|(e1 & _ & H)]; [eapply HL; exact H|].
        apply bind_err in H; destruct H as [H|(o1 & _ & H)]; [eapply HL; exact H|discriminate].
      * apply bind_err in H; destruct H as [H|(e1 & _ & H)]; [eapply HL; exact H|discriminate].
    + intros (_ & _ & [(_ & H & _)|[(_ & H & _)|(_ & H & _)]]); discriminate.
  - destruct (Nat.ltb_spec (enc_len e + opt_len pair - tp_max_length p) (enc_len e)) as [Hlt|Hge]; split.
    + intros H; exfalso. apply bind_err in H; destruct H as [H|(e1 & _ & H)]; [eapply HL; exact H|discriminate].
    + intros (_ & _ & [(_ & H & _)|[(_ & _ & H)|(_ & H & _)]]); [discriminate|lia|discriminate].
    + intros H; inversion H; subst. split; [lia|split; [lia|right; left]]. repeat split; lia.
    + intros (_ & _ & [(_ & H & _)|[(-> & _ & H)|(_ & H & _)]]); [discriminate|reflexivity|discriminate].
  - destruct pair as [o|]; cbn [opt_len] in *.
    + destruct (Nat.ltb_spec (enc_len e + enc_len o - tp_max_length p) (enc_len o)) as [Hlt|Hge]; split.
      * intros H; exfalso. apply bind_err in H; destruct H as [H|(e1 & _ & H)]; [eapply HL; exact H|discriminate].
      * intros (_ & _ & [(_ & _ & H)|[(_ & H & _)|(_ & _ & _ & H)]]); [discriminate|discriminate|lia].
      * intros H; inversion H; subst. split; [lia|split; [lia|right; right]].
        repeat split; [discriminate|lia].
      * intros (_ & _ & [(_ & _ & H)|[(_ & H & _)|(-> & _ & _ & H)]]); [discriminate|discriminate|reflexivity].
    + split.
      * intros H; inversion H; subst. split; [lia|split; [lia|left]]. auto.
      * intros (_ & _ & [(-> & _ & H)|[(_ & H & _)|(_ & _ & H & _)]]); [reflexivity|discriminate|congruence].
Qed.

Lemma truncate_ok_stride0 e n d : same_lengths e -> exists e', truncate e n 0 d = Ok e'.
Proof.
  intros Hs. destruct (truncate e n 0 d) as [e'|x|] eqn:E.
  - eauto.
  - apply truncate_no_err in E; destruct E.
  - apply truncate_panic_iff in E; [lia|exact Hs].
Qed.

Lemma truncate_encodings_no_panic e pair p :
  parallel e -> opt_parallel pair -> tp_stride p = 0 -> truncate_encodings e pair p <> Panic.
Proof.
  intros Hp Hpp Hst.
  assert (HT : forall x n, parallel x -> exists x',
            @lift_res trunc_error _ (truncate x n (tp_stride p) (tp_direction p)) = Ok x').
  { intros x n Hx; rewrite Hst.
    destruct (truncate_ok_stride0 x n (tp_direction p) (same_lengths_parallel _ Hx)) as (x' & ->).
    exists x'; reflexivity. }
  unfold truncate_encodings.
  destruct (tp_max_length p =? 0).
  { destruct (HT e 0 Hp) as (e1 & ->); cbn [bind]. destruct pair as [o|]; [|discriminate].
    destruct (HT o 0 Hpp) as (o1 & ->); cbn [bind]; discriminate. }
  destruct (enc_len e + opt_len pair <=? tp_max_length p); [discriminate|].
  destruct (tp_strategy p).
  - destruct pair as [o|].
    + destruct (longest_first_lengths _ _ _) as [n1 n2].
      destruct (HT e n1 Hp) as (e1 & ->); cbn [bind].
      destruct (HT o n2 Hpp) as (o1 & ->); cbn [bind]; discriminate.
    + destruct (HT e (enc_len e + opt_len None - (enc_len e + opt_len None - tp_max_length p)) Hp) as (e1 & ->); cbn [bind]; discriminate.
  - destruct (_ <? _); [|discriminate].
    destruct (HT e (enc_len e - (enc_len e + opt_len pair - tp_max_length p)) Hp) as (e1 & ->); cbn [bind]; discriminate.
  - destruct pair as [o|]; [|discriminate]. destruct (_ <? _); [|discriminate].
    destruct (HT o (enc_len o - (enc_len e + opt_len (Some o) - tp_max_length p)) Hpp) as (e1 & ->); cbn [bind]; discriminate.
Qed.

(** ** Batch padding *)
Lemma round_up_spec n m :
  0 < m -> let t := if (0 <? m) && (0 <? n mod m) then n + (m - n mod m) else n in
  n <= t /\ (exists q, t = q * m) /\ forall t', n <= t' -> (exists q, t' = q * m) -> t <= t'.
Proof.
  intros Hm; cbn zeta.
  pose proof (Nat.div_mod n m ltac:(lia)) as Hd.
  pose proof (Nat.mod_upper_bound n m ltac:(lia)) as Hr.
  destruct (Nat.ltb_spec 0 m); [|lia]; cbn [andb].
  destruct (Nat.ltb_spec 0 (n mod m)) as [Hp|Hp].
  - split; [lia|split].
    + exists (n / m + 1). rewrite Nat.mul_add_distr_r, (Nat.mul_comm (n / m)); lia.
    + intros t' Ht' (q & ->).
      assert (n / m < q).
      { apply Nat.nle_gt; intros Hle. apply (Nat.mul_le_mono_r _ _ m) in Hle.
        rewrite (Nat.mul_comm (n / m)) in Hle; lia. }
      assert (Hmul : (n / m + 1) * m <= q * m) by (apply Nat.mul_le_mono_r; lia).
      rewrite Nat.mul_add_distr_r, (Nat.mul_comm (n / m)) in Hmul; lia.
  - split; [lia|split].
    + exists (n / m); rewrite Nat.mul_comm; lia.
    + intros; lia.
Qed.

Lemma max_list_ge l x : In x l -> x <= fold_right Nat.max 0 l.
Proof. induction l as [|y l IH]; cbn [In fold_right]; [tauto|]. intros [->|H]; [lia|specialize (IH H); lia]. Qed.

Lemma max_list_in l : l <> [] -> In (fold_right Nat.max 0 l) l.
Proof.
  induction l as [|y l IH]; [congruence|]. intros _; cbn [fold_right In].
  destruct l as [|z l]; [cbn; left; lia|].
  specialize (IH ltac:(discriminate)).
  destruct (Nat.max_spec y (fold_right Nat.max 0 (z :: l))) as [[_ ->]|[_ ->]]; auto.
Qed.
