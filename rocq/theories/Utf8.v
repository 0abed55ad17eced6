(** UTF-8: the bytes of a Rust [str], [str::from_utf8] and
    [String::from_utf8_lossy] (core library, by the Unicode standard: table of
    well-formed byte sequences, replacement of maximal subparts). *)
From Verif Require Import Base.

Local Open Scope N_scope.

(** The values of the Rust type [char]. *)
Definition is_scalar (c : N) : bool := (c <? 55296) || ((57344 <=? c) && (c <? 1114112)).

(** [char::encode_utf8]. *)
Definition encode_char (c : N) : list N :=
  if c <? 128 then [c]
  else if c <? 2048 then [192 + c / 64; 128 + c mod 64]
  else if c <? 65536 then [224 + c / 4096; 128 + (c / 64) mod 64; 128 + c mod 64]
  else [240 + c / 262144; 128 + (c / 4096) mod 64; 128 + (c / 64) mod 64; 128 + c mod 64].

(** [str::as_bytes]. *)
Definition encode_utf8 (s : str) : list N := flat_map encode_char s.

(** The result of reading one character: it and the bytes after it, or the
    bytes after the longest part that starts a character (at least one byte). *)
Inductive ustep := UChar (c : N) (rest : list N) | UBad (rest : list N).

Definition in_range (lo b hi : N) : bool := (lo <=? b) && (b <=? hi).
Definition is_cont (b : N) : bool := in_range 128 b 191.

(** The second byte after a first byte of a three or four byte character. *)
Definition second_ok (b0 b1 : N) : bool :=
  if b0 =? 224 then in_range 160 b1 191
  else if b0 =? 237 then in_range 128 b1 159
  else if b0 =? 240 then in_range 144 b1 191
  else if b0 =? 244 then in_range 128 b1 143
  else is_cont b1.

Definition utf8_step (b0 : N) (rest : list N) : ustep :=
  if b0 <? 128 then UChar b0 rest
  else if in_range 194 b0 223 then
    match rest with
    | b1 :: r => if is_cont b1 then UChar ((b0 - 192) * 64 + (b1 - 128)) r else UBad rest
    | [] => UBad []
    end
  else if in_range 224 b0 239 then
    match rest with
    | b1 :: r =>
        if second_ok b0 b1 then
          match r with
          | b2 :: r' => if is_cont b2 then UChar ((b0 - 224) * 4096 + (b1 - 128) * 64 + (b2 - 128)) r' else UBad r
          | [] => UBad []
          end
        else UBad rest
    | [] => UBad []
    end
  else if in_range 240 b0 244 then
    match rest with
    | b1 :: r =>
        if second_ok b0 b1 then
          match r with
          | b2 :: r' =>
              if is_cont b2 then
                match r' with
                | b3 :: r'' =>
                    if is_cont b3
                    then UChar ((b0 - 240) * 262144 + (b1 - 128) * 4096 + (b2 - 128) * 64 + (b3 - 128)) r''
                    else UBad r'
                | [] => UBad []
                end
              else UBad r
          | [] => UBad []
          end
        else UBad rest
    | [] => UBad []
    end
  else UBad rest.

Fixpoint from_utf8_fuel (fuel : nat) (l : list N) : option str :=
  match l, fuel with
  | [], _ => Some []
  | _, O => None
  | b :: r, S f =>
      match utf8_step b r with
      | UChar c r' => option_map (cons c) (from_utf8_fuel f r')
      | UBad _ => None
      end
  end.
(** [String::from_utf8]. *)
Definition from_utf8 (l : list N) : option str := from_utf8_fuel (length l) l.

(** [char::REPLACEMENT_CHARACTER]. *)
Definition replacement_char : N := 65533.

Fixpoint lossy_fuel (fuel : nat) (l : list N) : str :=
  match l, fuel with
  | [], _ => []
  | _, O => []
  | b :: r, S f =>
      match utf8_step b r with
      | UChar c r' => c :: lossy_fuel f r'
      | UBad r' => replacement_char :: lossy_fuel f r'
      end
  end.
(** [String::from_utf8_lossy]. *)
Definition from_utf8_lossy (l : list N) : str := lossy_fuel (length l) l.

(** ** Facts *)
Ltac bools :=
  repeat match goal with
  | H : (_ && _) = true |- _ => apply andb_true_iff in H; destruct H
  | H : (_ || _) = true |- _ => apply orb_true_iff in H
  | H : N.ltb _ _ = true |- _ => apply N.ltb_lt in H
  | H : N.ltb _ _ = false |- _ => apply N.ltb_ge in H
  | H : N.leb _ _ = true |- _ => apply N.leb_le in H
  | H : N.leb _ _ = false |- _ => apply N.leb_gt in H
  | H : N.eqb _ _ = true |- _ => apply N.eqb_eq in H
  | H : N.eqb _ _ = false |- _ => apply N.eqb_neq in H
  end.

Lemma encode_char_len c : length (encode_char c) = len_utf8 c.
Proof. unfold encode_char, len_utf8. repeat destruct (_ <? _); reflexivity. Qed.

Lemma encode_utf8_len s : length (encode_utf8 s) = blen s.
Proof. induction s as [|c s IH]; [reflexivity|]. cbn [encode_utf8 flat_map blen]. rewrite app_length, encode_char_len. unfold encode_utf8 in IH. rewrite IH. reflexivity. Qed.

Lemma encode_utf8_app a b : encode_utf8 (a ++ b) = encode_utf8 a ++ encode_utf8 b.
Proof. apply flat_map_app. Qed.

(** What a first byte and its successors say about a character. *)
Lemma div_facts c : c = (c / 64) * 64 + c mod 64 /\ c mod 64 < 64.
Proof. split; [rewrite (N.div_mod c 64) at 1 by discriminate; lia|apply N.mod_lt; discriminate]. Qed.

Lemma encode_step c rest : is_scalar c = true -> exists b0 r, encode_char c ++ rest = b0 :: r /\ utf8_step b0 r = UChar c rest.
Proof.
  intros S. unfold is_scalar in S. unfold encode_char.
  destruct (c <? 128) eqn:E1; [|destruct (c <? 2048) eqn:E2; [|destruct (c <? 65536) eqn:E3]]; bools; cbn [app]; eexists _, _; (split; [reflexivity|]); unfold utf8_step.
  - replace (c <? 128) with true by (symmetry; apply N.ltb_lt; lia). reflexivity.
  - pose proof (div_facts c) as [A B]. set (q := c / 64) in *. set (m := c mod 64) in *.
    replace (192 + q <? 128) with false by (symmetry; apply N.ltb_ge; lia).
    replace (in_range 194 (192 + q) 223) with true by (symmetry; unfold in_range; apply andb_true_iff; split; apply N.leb_le; lia).
    replace (is_cont (128 + m)) with true by (symmetry; unfold is_cont, in_range; apply andb_true_iff; split; apply N.leb_le; lia).
    f_equal. lia.
  - replace (c / 4096) with (c / 64 / 64) by (rewrite N.div_div by discriminate; reflexivity).
    pose proof (div_facts c) as [A B]. pose proof (div_facts (c / 64)) as [A' B']. set (q := c / 64 / 64) in *. set (m' := (c / 64) mod 64) in *. set (m := c mod 64) in *.
    assert (Q : c = q * 4096 + m' * 64 + m) by lia.
    replace (224 + q <? 128) with false by (symmetry; apply N.ltb_ge; lia).
    replace (in_range 194 (224 + q) 223) with false by (symmetry; unfold in_range; apply andb_false_iff; right; apply N.leb_gt; lia).
    replace (in_range 224 (224 + q) 239) with true by (symmetry; unfold in_range; apply andb_true_iff; split; apply N.leb_le; lia).
    replace (second_ok (224 + q) (128 + m')) with true.
    2:{ symmetry. unfold second_ok, is_cont, in_range. destruct (224 + q =? 224) eqn:X1; [|destruct (224 + q =? 237) eqn:X2; [|destruct (224 + q =? 240) eqn:X3; [|destruct (224 + q =? 244) eqn:X4]]]; bools; apply andb_true_iff; split; apply N.leb_le; lia. }
    replace (is_cont (128 + m)) with true by (symmetry; unfold is_cont, in_range; apply andb_true_iff; split; apply N.leb_le; lia).
    f_equal. lia.
  - replace (c / 262144) with (c / 64 / 64 / 64) by (rewrite !N.div_div by discriminate; reflexivity).
    replace (c / 4096) with (c / 64 / 64) by (rewrite N.div_div by discriminate; reflexivity).
    pose proof (div_facts c) as [A B]. pose proof (div_facts (c / 64)) as [A' B']. pose proof (div_facts (c / 64 / 64)) as [A'' B''].
    set (q := c / 64 / 64 / 64) in *. set (m'' := (c / 64 / 64) mod 64) in *. set (m' := (c / 64) mod 64) in *. set (m := c mod 64) in *.
    assert (Q : c = q * 262144 + m'' * 4096 + m' * 64 + m) by lia.
    replace (240 + q <? 128) with false by (symmetry; apply N.ltb_ge; lia).
    replace (in_range 194 (240 + q) 223) with false by (symmetry; unfold in_range; apply andb_false_iff; right; apply N.leb_gt; lia).
    replace (in_range 224 (240 + q) 239) with false by (symmetry; unfold in_range; apply andb_false_iff; right; apply N.leb_gt; lia).
    replace (in_range 240 (240 + q) 244) with true by (symmetry; unfold in_range; apply andb_true_iff; split; apply N.leb_le; lia).
    replace (second_ok (240 + q) (128 + m'')) with true.
    2:{ symmetry. unfold second_ok, is_cont, in_range. destruct (240 + q =? 224) eqn:X1; [|destruct (240 + q =? 237) eqn:X2; [|destruct (240 + q =? 240) eqn:X3; [|destruct (240 + q =? 244) eqn:X4]]]; bools; apply andb_true_iff; split; apply N.leb_le; lia. }
    replace (is_cont (128 + m')) with true by (symmetry; unfold is_cont, in_range; apply andb_true_iff; split; apply N.leb_le; lia).
    replace (is_cont (128 + m)) with true by (symmetry; unfold is_cont, in_range; apply andb_true_iff; split; apply N.leb_le; lia).
    f_equal. lia.
Qed.

Lemma mul_div a b k : 0 < k -> b < k -> (a * k + b) / k = a /\ (a * k + b) mod k = b.
Proof.
  intros K B. split.
  - symmetry. apply (N.div_unique _ _ a b B). lia.
  - symmetry. apply (N.mod_unique _ _ a b B). lia.
Qed.

Lemma step_encode b0 r c rest : utf8_step b0 r = UChar c rest -> is_scalar c = true /\ b0 :: r = encode_char c ++ rest.
Proof.
  unfold utf8_step. destruct (b0 <? 128) eqn:E1.
  { intros H. injection H as <- <-. bools. split; [unfold is_scalar; apply orb_true_iff; left; apply N.ltb_lt; lia|]. unfold encode_char.
    replace (b0 <? 128) with true by (symmetry; apply N.ltb_lt; lia). reflexivity. }
  destruct (in_range 194 b0 223) eqn:E2.
  { destruct r as [|b1 r]; [discriminate|]. destruct (is_cont b1) eqn:C1; [|discriminate]. intros H. injection H as <- <-.
    unfold in_range, is_cont in *. unfold in_range in C1. bools. set (x := b0 - 192). set (y := b1 - 128). assert (X : b0 = 192 + x) by lia. assert (Y : b1 = 128 + y) by lia.
    split; [unfold is_scalar; apply orb_true_iff; left; apply N.ltb_lt; lia|]. unfold encode_char.
    replace (x * 64 + y <? 128) with false by (symmetry; apply N.ltb_ge; lia). replace (x * 64 + y <? 2048) with true by (symmetry; apply N.ltb_lt; lia).
    destruct (mul_div x y 64) as [D M]; [lia|lia|]. rewrite D, M. cbn [app]. congruence. }
  destruct (in_range 224 b0 239) eqn:E3.
  { destruct r as [|b1 r]; [discriminate|]. destruct (second_ok b0 b1) eqn:S1; [|discriminate]. destruct r as [|b2 r]; [discriminate|].
    destruct (is_cont b2) eqn:C2; [|discriminate]. intros H. injection H as <- <-.
    assert (C1 : is_cont b1 = true).
    { unfold second_ok, is_cont, in_range in *. repeat destruct (_ =? _); bools; apply andb_true_iff; split; apply N.leb_le; lia. }
    assert (S2 : (b0 = 224 -> 160 <= b1) /\ (b0 = 237 -> b1 <= 159)).
    { split; intros ->; unfold second_ok, in_range in S1; cbn in S1; bools; lia. } clear S1.
    unfold in_range, is_cont in *. unfold in_range in C1, C2. bools. set (x := b0 - 224). set (y := b1 - 128). set (z := b2 - 128).
    assert (X : b0 = 224 + x) by lia. assert (Y : b1 = 128 + y) by lia. assert (Z : b2 = 128 + z) by lia.
    assert (XY : 2048 <= x * 4096 + y * 64 + z < 65536 /\ (x * 4096 + y * 64 + z < 55296 \/ 57344 <= x * 4096 + y * 64 + z)).
    { destruct (N.eq_dec x 0) as [X0|X0]; [lia|]. destruct (N.eq_dec x 13) as [X1|X1]; [lia|]. destruct (N.lt_ge_cases x 13); lia. }
    split.
    { unfold is_scalar. apply orb_true_iff. destruct XY as [XY1 [XY2|XY2]]; [left; apply N.ltb_lt; lia|right; apply andb_true_iff; split; [apply N.leb_le|apply N.ltb_lt]; lia]. }
    unfold encode_char. replace (x * 4096 + y * 64 + z <? 128) with false by (symmetry; apply N.ltb_ge; lia). replace (x * 4096 + y * 64 + z <? 2048) with false by (symmetry; apply N.ltb_ge; lia).
    replace (x * 4096 + y * 64 + z <? 65536) with true by (symmetry; apply N.ltb_lt; lia).
    destruct (mul_div x (y * 64 + z) 4096) as [D1 _]; [lia|lia|]. rewrite N.add_assoc in D1. rewrite D1.
    replace (x * 4096 + y * 64 + z) with ((x * 64 + y) * 64 + z) by lia. destruct (mul_div (x * 64 + y) z 64) as [D2 M2]; [lia|lia|]. rewrite D2, M2.
    destruct (mul_div x y 64) as [_ M3]; [lia|lia|]. rewrite M3. cbn [app]. congruence. }
  destruct (in_range 240 b0 244) eqn:E4; [|discriminate].
  destruct r as [|b1 r]; [discriminate|]. destruct (second_ok b0 b1) eqn:S1; [|discriminate]. destruct r as [|b2 r]; [discriminate|].
  destruct (is_cont b2) eqn:C2; [|discriminate]. destruct r as [|b3 r]; [discriminate|]. destruct (is_cont b3) eqn:C3; [|discriminate]. intros H. injection H as <- <-.
  assert (C1 : is_cont b1 = true).
  { unfold second_ok, is_cont, in_range in *. repeat destruct (_ =? _); bools; apply andb_true_iff; split; apply N.leb_le; lia. }
  assert (S2 : (b0 = 240 -> 144 <= b1) /\ (b0 = 244 -> b1 <= 143)).
  { split; intros ->; unfold second_ok, in_range in S1; cbn in S1; bools; lia. } clear S1.
  unfold in_range, is_cont in *. unfold in_range in C1, C2, C3. bools. set (x := b0 - 240). set (y := b1 - 128). set (z := b2 - 128). set (u := b3 - 128).
  assert (X : b0 = 240 + x) by lia. assert (Y : b1 = 128 + y) by lia. assert (Z : b2 = 128 + z) by lia. assert (U : b3 = 128 + u) by lia.
  assert (XY : 65536 <= x * 262144 + y * 4096 + z * 64 + u < 1114112).
  { destruct (N.eq_dec x 0) as [X0|X0]; [lia|]. destruct (N.eq_dec x 4) as [X1|X1]; lia. }
  split.
  { unfold is_scalar. apply orb_true_iff. right. apply andb_true_iff. split; [apply N.leb_le|apply N.ltb_lt]; lia. }
  unfold encode_char. replace (x * 262144 + y * 4096 + z * 64 + u <? 128) with false by (symmetry; apply N.ltb_ge; lia).
  replace (x * 262144 + y * 4096 + z * 64 + u <? 2048) with false by (symmetry; apply N.ltb_ge; lia).
  replace (x * 262144 + y * 4096 + z * 64 + u <? 65536) with false by (symmetry; apply N.ltb_ge; lia).
  destruct (mul_div x (y * 4096 + z * 64 + u) 262144) as [D1 _]; [lia|lia|]. rewrite !N.add_assoc in D1. rewrite D1.
  replace (x * 262144 + y * 4096 + z * 64 + u) with ((x * 64 + y) * 4096 + (z * 64 + u)) by lia.
  destruct (mul_div (x * 64 + y) (z * 64 + u) 4096) as [D2 _]; [lia|lia|]. rewrite D2.
  replace ((x * 64 + y) * 4096 + (z * 64 + u)) with (((x * 64 + y) * 64 + z) * 64 + u) by lia.
  destruct (mul_div ((x * 64 + y) * 64 + z) u 64) as [D3 M3]; [lia|lia|]. rewrite D3, M3.
  destruct (mul_div (x * 64 + y) z 64) as [_ M4]; [lia|lia|]. rewrite M4. destruct (mul_div x y 64) as [_ M5]; [lia|lia|]. rewrite M5. cbn [app]. congruence.
Qed.

Lemma from_utf8_fuel_encode s : forall f, (length (encode_utf8 s) <= f)%nat -> Forall (fun c => is_scalar c = true) s -> from_utf8_fuel f (encode_utf8 s) = Some s.
Proof.
  induction s as [|c s IH]; intros f L F; [destruct f; reflexivity|]. inversion F as [|? ? F1 F2]; subst.
  cbn [encode_utf8 flat_map] in *. destruct (encode_step c (flat_map encode_char s) F1) as (b0 & r & E & ST). rewrite app_length in L.
  rewrite encode_char_len in L. pose proof (len_utf8_pos c). destruct f as [|f]; [lia|]. rewrite E. cbn [from_utf8_fuel]. rewrite ST.
  change (flat_map encode_char s) with (encode_utf8 s) in *. rewrite IH by (auto; lia). reflexivity.
Qed.

Lemma from_utf8_encode s : Forall (fun c => is_scalar c = true) s -> from_utf8 (encode_utf8 s) = Some s.
Proof. intros F. apply from_utf8_fuel_encode; [lia|exact F]. Qed.

Lemma from_utf8_fuel_inv f : forall l s, from_utf8_fuel f l = Some s -> encode_utf8 s = l /\ Forall (fun c => is_scalar c = true) s.
Proof.
  induction f as [|f IH]; intros [|b r] s H; cbn in H; try discriminate; try (injection H as <-; split; [reflexivity|constructor]).
  destruct (utf8_step b r) as [c r'|r'] eqn:E; [|discriminate]. destruct (from_utf8_fuel f r') as [t|] eqn:ET; [|discriminate]. cbn in H. injection H as <-.
  destruct (IH _ _ ET) as [A B]. destruct (step_encode _ _ _ _ E) as [C D]. split; [|constructor; assumption].
  cbn [encode_utf8 flat_map]. change (flat_map encode_char t) with (encode_utf8 t). rewrite A. symmetry. exact D.
Qed.

Lemma from_utf8_inv l s : from_utf8 l = Some s -> encode_utf8 s = l /\ Forall (fun c => is_scalar c = true) s.
Proof. apply from_utf8_fuel_inv. Qed.

Lemma encode_utf8_inj a b : Forall (fun c => is_scalar c = true) a -> Forall (fun c => is_scalar c = true) b -> encode_utf8 a = encode_utf8 b -> a = b.
Proof. intros A B E. apply from_utf8_encode in A, B. rewrite E in A. congruence. Qed.

(** The lossy reading of valid bytes is the strict one. *)
Lemma lossy_fuel_of f : forall l s, from_utf8_fuel f l = Some s -> lossy_fuel f l = s.
Proof.
  induction f as [|f IH]; intros [|b r] s H; cbn in *; try discriminate; try (injection H as <-; reflexivity).
  destruct (utf8_step b r) as [c r'|r']; [|discriminate]. destruct (from_utf8_fuel f r') as [t|] eqn:ET; [|discriminate]. cbn in H. injection H as <-.
  rewrite (IH _ _ ET). reflexivity.
Qed.

Lemma lossy_of l s : from_utf8 l = Some s -> from_utf8_lossy l = s.
Proof. apply lossy_fuel_of. Qed.

Lemma encode_char_bytes c : is_scalar c = true -> Forall (fun b => b < 256) (encode_char c).
Proof.
  intros S. unfold is_scalar in S. unfold encode_char. pose proof (div_facts c) as [_ B].
  assert (M1 : (c / 64) mod 64 < 64) by (apply N.mod_lt; discriminate). assert (M2 : (c / 4096) mod 64 < 64) by (apply N.mod_lt; discriminate).
  destruct (c <? 128) eqn:E1; [|destruct (c <? 2048) eqn:E2; [|destruct (c <? 65536) eqn:E3]]; bools; repeat constructor; try lia.
Qed.

Lemma encode_utf8_bytes s : Forall (fun c => is_scalar c = true) s -> Forall (fun b => b < 256) (encode_utf8 s).
Proof.
  induction 1 as [|c s H _ IH]; [constructor|]. cbn [encode_utf8 flat_map]. apply Forall_app. split; [apply encode_char_bytes; exact H|exact IH].
Qed.
