(** C82: indexing and slicing a NormalizedString from Python. *)
From Verif Require Import Base ListFacts StrBytes EncodingModel NormModel NormSpec NormProofs NormProofs5 NormProps PyNormModel PyNormSpec.

Lemma blen_chars s : length s <= blen s.
Proof. induction s as [|c s IH]; cbn [length blen]; [lia|]. pose proof (len_utf8_pos c). lia. Qed.
Lemma blen_ascii s : ascii s -> blen s = length s.
Proof.
  induction 1 as [|c s H _ IH]; [reflexivity|]. cbn [blen length]. rewrite IH. unfold len_utf8. destruct (c <? 128)%N eqn:E; lia.
Qed.

(** A range beyond the end ends at the end. *)
Lemma char_to_bytes_long s rs re : rs < length s -> length s <= re -> char_to_bytes s rs re = char_to_bytes s rs (length s).
Proof.
  intros H1 H2. unfold char_to_bytes. replace (rs =? re) with false by lia. replace (rs =? length s) with false by lia. replace (re <? rs) with false by lia. replace (length s <? rs) with false by lia.
  replace ((rs =? 0) && (re =? 0)) with false by lia. replace ((rs =? 0) && (length s =? 0)) with false by lia.
  rewrite !firstn_all2 by (rewrite skipn_length, char_indices_length; lia). reflexivity.
Qed.
Lemma slice_part ns p m q r rs re : aligned ns -> n_normalized ns = p ++ m ++ q -> m <> [] -> to_range r (n_len ns) = Ok (rs, re) -> rs = length p ->
  (re = length p + length m \/ q = [] /\ length p + length m <= re) -> exists x, py_slice ns r = Ok (Some x) /\ cut_out ns p m x.
Proof.
  intros A E M R -> B. unfold py_slice. rewrite R. cbn [bind fst snd].
  assert (C : char_to_bytes (n_normalized ns) (length p) re = Ok (Some (blen p, blen p + blen m))).
  { rewrite E. destruct B as [-> | [-> L]]; [apply char_to_bytes_ok; auto|]. rewrite app_nil_r. assert (0 < length m) by (destruct m; [congruence|cbn; lia]).
    rewrite char_to_bytes_long; rewrite ?app_length; [|lia|lia]. pose proof (char_to_bytes_ok p m []) as X. rewrite app_nil_r in X. apply X. auto. }
  rewrite C. assert (L : blen p < blen p + blen m). { destruct m as [|c m]; [congruence|]. cbn [blen]. pose proof (len_utf8_pos c). lia. }
  destruct (C14_slice_normalized ns (blen p) (blen p + blen m) A L) as (x & s & e & -> & T & CO & TO & OF & _).
  { apply is_boundary_spec. exists p, (m ++ q). auto. }
  { apply is_boundary_spec. exists (p ++ m), q. rewrite <- app_assoc, blen_app. auto. }
  exists x. split; [reflexivity|]. rewrite E, str_get_app in T. injection T as T. split; [auto|]. split; [eauto|]. exists s, e. auto.
Qed.

(** [ns[i]]: the character at this position, with the part of the original text it
    comes from; counted from the end for texts in ASCII. *)
Theorem C82_item ns i c : aligned ns -> python_item (n_normalized ns) i = Some c -> ((0 <= i)%Z \/ ascii (n_normalized ns)) ->
  exists p x, python_item (n_normalized ns) (Z.of_nat (length p)) = Some c /\ (i = Z.of_nat (length p) \/ i = Z.of_nat (length p) - Z.of_nat (length (n_normalized ns)))%Z /\
    py_slice ns (RSingle i) = Ok (Some x) /\ cut_out ns p [c] x.
Proof.
  intros A H K. unfold python_item in H. assert (X : exists k, nth_error (n_normalized ns) k = Some c /\ to_range (RSingle i) (n_len ns) = Ok (k, k + 1) /\ (i = Z.of_nat k \/ i = Z.of_nat k - Z.of_nat (length (n_normalized ns)))%Z).
  { cbn [to_range]. destruct (0 <=? i)%Z eqn:S.
    - exists (Z.to_nat i). split; [exact H|]. replace (i <? 0)%Z with false by lia. split; [reflexivity|lia].
    - destruct K as [K|K]; [lia|]. destruct (0 <=? i + Z.of_nat (length (n_normalized ns)))%Z eqn:S2; [|discriminate]. exists (Z.to_nat (i + Z.of_nat (length (n_normalized ns)))). split; [exact H|].
      replace (i <? 0)%Z with true by lia. unfold n_len. rewrite (blen_ascii _ K). replace (length (n_normalized ns) <? Z.to_nat (- i)) with false by lia. split; [|lia]. f_equal. f_equal; lia. }
  destruct X as (k & N & R & I). destruct (nth_error_split _ _ N) as (p & q & E & L). subst k.
  destruct (slice_part ns p [c] q (RSingle i) _ _ A E ltac:(discriminate) R eq_refl) as (x & S & C); [left; reflexivity|]. exists p, x. split; [|auto].
  unfold python_item. replace (0 <=? Z.of_nat (length p))%Z with true by lia. rewrite Nat2Z.id. exact N.
Qed.

(** Positions after the end give [None]. *)
Lemma char_to_bytes_after s a b : length s <= a -> (0 < a \/ 0 < b) -> a <= b -> char_to_bytes s a b = Ok None.
Proof.
  intros H Z L. unfold char_to_bytes. replace ((a =? 0) && (b =? 0)) with false by lia. rewrite skipn_all2 by (rewrite char_indices_length; exact H).
  destruct (a =? b) eqn:E; [reflexivity|]. replace (b <? a) with false by lia. rewrite firstn_nil. reflexivity.
Qed.
Theorem C82_item_after ns i : (Z.of_nat (length (n_normalized ns)) <= i)%Z -> py_slice ns (RSingle i) = Ok None.
Proof.
  intros H. unfold py_slice. cbn [to_range]. replace (i <? 0)%Z with false by lia. cbn [bind fst snd]. rewrite char_to_bytes_after; [reflexivity|lia|lia|lia].
Qed.
(** Positions before the start: an error. *)
Theorem C82_item_before ns i : (i < - Z.of_nat (n_len ns))%Z -> py_slice ns (RSingle i) = Err tt.
Proof.
  intros H. unfold py_slice. cbn [to_range]. replace (i <? 0)%Z with true by lia. replace (n_len ns <? Z.to_nat (- i)) with true by lia. reflexivity.
Qed.

(** [ns[start:stop]] where it is not empty: bounds from the start, or any bounds for
    texts in ASCII. *)
Definition from_start (v : option Z) : Prop := match v with Some k => (0 <= k)%Z | None => True end.
Theorem C82_slice ns start stop step m : aligned ns -> m = python_slice (n_normalized ns) start stop -> m <> [] -> step = None \/ step = Some 1%Z ->
  (from_start start /\ from_start stop \/ ascii (n_normalized ns)) ->
  exists x, py_slice ns (RSlice start stop step) = Ok (Some x) /\
    cut_out ns (firstn (first_position (length (n_normalized ns)) start) (n_normalized ns)) m x.
Proof.
  intros A -> M ST K. set (s := n_normalized ns) in *. unfold python_slice in *. set (a := first_position (length s) start) in *. set (b := last_position (length s) stop) in *.
  assert (L : a < b /\ a < length s /\ b <= length s).
  { assert (b <= length s) by (subst b; unfold last_position, position; destruct stop as [v|]; [destruct (v <? 0)%Z eqn:?|]; lia).
    destruct (Nat.lt_ge_cases a b) as [X|X]; [lia|]. exfalso. apply M. replace (b - a) with 0 by lia. reflexivity. }
  destruct L as (L1 & L2 & L3).
  assert (E : s = firstn a s ++ firstn (b - a) (skipn a s) ++ skipn (b - a) (skipn a s)) by (rewrite !firstn_skipn; reflexivity).
  assert (La : length (firstn a s) = a) by (rewrite firstn_length; lia).
  assert (Lb : length (firstn (b - a) (skipn a s)) = b - a) by (rewrite firstn_length, skipn_length; lia).
  assert (R : exists re, to_range (RSlice start stop step) (n_len ns) = Ok (a, re) /\ (re = b \/ b = length s /\ b <= re)).
  { assert (LE : length s <= n_len ns) by apply blen_chars. assert (AS : ascii s -> n_len ns = length s) by apply blen_ascii.
    cbn [to_range]. unfold slice_indices. replace (match step with Some k => k | None => 1%Z end) with 1%Z by (destruct ST as [-> | ->]; reflexivity). cbn [Z.eqb].
    assert (Pa : as_usize (n_len ns) (match start with Some v => adjust (Z.of_nat (n_len ns)) 1 v | None => if (1 <? 0)%Z then (Z.of_nat (n_len ns) - 1)%Z else 0%Z end) = a).
    { subst a. unfold first_position, position, as_usize, adjust in *. cbn [Z.ltb Z.compare] in *. destruct start as [v|]; cbn [from_start] in K; [|reflexivity].
      destruct (v <? 0)%Z eqn:V.
      - destruct K as [[K _]|K]; [lia|]. specialize (AS K). destruct (v + Z.of_nat (n_len ns) <? 0)%Z eqn:V2; [cbn; lia|]. rewrite V2. lia.
      - destruct (Z.of_nat (n_len ns) <=? v)%Z eqn:V2; [|rewrite V; lia]. destruct (Z.of_nat (n_len ns) <? 0)%Z eqn:V3; lia. }
    assert (Pb : exists re, as_usize (n_len ns) (match stop with Some v => adjust (Z.of_nat (n_len ns)) 1 v | None => if (1 <? 0)%Z then (-1)%Z else Z.of_nat (n_len ns) end) = re /\ (re = b \/ b = length s /\ b <= re)).
    { eexists. split; [reflexivity|]. subst b. unfold last_position, position, as_usize, adjust in *. cbn [Z.ltb Z.compare] in *. destruct stop as [v|]; cbn [from_start] in K.
      - destruct (v <? 0)%Z eqn:V.
        + destruct K as [[_ K]|K]; [lia|]. specialize (AS K). left. destruct (v + Z.of_nat (n_len ns) <? 0)%Z eqn:V2; [cbn; lia|]. rewrite V2. lia.
        + destruct (Z.of_nat (n_len ns) <=? v)%Z eqn:V2; [|rewrite V; lia]. destruct (Z.of_nat (n_len ns) <? 0)%Z eqn:V3; lia.
      - destruct (Z.of_nat (n_len ns) <? 0)%Z eqn:V3; lia. }
    destruct Pb as (re & Pb & B). exists re. split; [|exact B]. cbn [Z.ltb Z.compare] in *. f_equal. f_equal; [exact Pa|exact Pb]. }
  destruct R as (re & R & B). eapply slice_part; [exact A|exact E|exact M|exact R|symmetry; exact La|]. rewrite La, Lb.
  destruct B as [-> | [B1 B2]]; [left; lia|]. right. split; [|lia]. rewrite B1, skipn_skipn. apply skipn_all2. lia.
Qed.

(** ** Examples and findings *)
Definition t_abc : str := [97; 98; 99]%N.
Definition t_ae : str := [97; 233]%N.
Example C82_ex : aligned (nfrom t_abc) /\ python_item t_abc (-1) = Some 99%N /\ python_slice t_abc (Some (-2)%Z) None = [98; 99]%N /\ ascii t_abc /\
  aligned (nfrom t_ae) /\ python_item t_ae 1 = Some 233%N /\ python_slice t_ae (Some 1%Z) (Some 9%Z) = [233%N].
Proof. split; [apply nfrom_aligned|]. split; [reflexivity|]. split; [reflexivity|]. split; [repeat constructor|]. split; [apply nfrom_aligned|]. split; reflexivity. Qed.

(** Counting from the end counts bytes: the last character of "a, e acute" is not
    found, and the one before it is the last. *)
Theorem C82_negative_refuted : exists x, python_item t_ae (-1) = Some 233%N /\ py_slice (nfrom t_ae) (RSingle (-1)) = Ok None /\
  python_item t_ae (-2) = Some 97%N /\ py_slice (nfrom t_ae) (RSingle (-2)) = Ok (Some x) /\ n_normalized x = [233%N].
Proof. eexists. repeat split. Qed.
Theorem C82_negative_slice_refuted : python_slice t_ae (Some (-1)%Z) None = [233%N] /\ py_slice (nfrom t_ae) (RSlice (Some (-1)%Z) None None) = Ok None.
Proof. split; reflexivity. Qed.
(** The step is ignored. *)
Theorem C82_step_refuted : exists x y, py_slice (nfrom t_abc) (RSlice None None (Some 2%Z)) = Ok (Some x) /\ n_normalized x = t_abc /\
  py_slice (nfrom t_abc) (RSlice None None (Some (-1)%Z)) = Ok (Some y) /\ n_normalized y = [99%N].
Proof. eexists _, _. repeat split. Qed.
(** Empty slices: [None] at the end; an overflow if the bounds are in the wrong order. *)
Theorem C82_empty_refuted : py_slice (nfrom t_abc) (RSlice (Some 3%Z) None None) = Ok None /\ py_slice (nfrom t_abc) (RSlice (Some 2%Z) (Some 1%Z) None) = Panic /\
  exists x, py_slice (nfrom t_abc) (RSlice (Some 1%Z) (Some 1%Z) None) = Ok (Some x) /\ n_normalized x = [].
Proof. split; [reflexivity|]. split; [reflexivity|]. eexists. split; reflexivity. Qed.
