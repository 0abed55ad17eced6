(** C93: the texts that [repr] and [str] give for tokenizers, models and the other objects of the Python bindings. *)
From Coq Require Import ZArith String.
From Verif Require Import Base StrBytes VisualModel PyReprModel PyReprSpec PyReprProofs PyReprReadProofs.

(** With at most 199 (19) levels of nesting, [repr] ([str]) writes the expression of the value,
    as [expr_of] and [text_of] define it without counters and levels: values in brackets
    with commas between them, named arguments, at most 99 (5) elements and dots. [repr] never
    panics; [str] panics exactly if a text of more than 100 bytes cannot be cut after 100 bytes. *)
Theorem C93_repr v : plain_names v -> depth v < 200 -> exists e, expr_of repr_limits v = Some e /\ py_repr v = Ok (text_of e).
Proof.
  intros P D. unfold py_repr. rewrite (printed_text repr_limits ltac:(cbn; lia) v P D). destruct (expr_of repr_limits v) as [e|] eqn:E; [eauto|]. destruct (expr_total repr_limits v eq_refl E).
Qed.
Theorem C93_str v : plain_names v -> depth v < 20 -> py_str v = match expr_of str_limits v with Some e => Ok (text_of e) | None => Panic end.
Proof. intros P D. apply (printed_text str_limits); [cbn; lia|exact P|exact D]. Qed.

(** Values without quotes in their texts: the text of [repr] determines the expression. *)
Theorem C93_same v v' : plain_names v -> plain_names v' -> unquoted v -> unquoted v' -> depth v < 200 -> depth v' < 200 ->
  py_repr v = py_repr v' -> expr_of repr_limits v = expr_of repr_limits v'.
Proof.
  intros P P' U U' D D' E. destruct (C93_repr v P D) as (e & X & R). destruct (C93_repr v' P' D') as (e' & X' & R'). rewrite R, R' in E.
  pose proof (expr_readable repr_limits v eq_refl P U) as F. pose proof (expr_readable repr_limits v' eq_refl P' U') as F'. pose proof (expr_atom repr_limits v) as A. pose proof (expr_atom repr_limits v') as A'. rewrite X in *. rewrite X' in *.
  f_equal. apply text_inj; auto. congruence.
Qed.
(** Lists and dictionaries of fewer than 100 elements, of numbers, truth values and texts without
    quotes: equal texts mean equal values. *)
Theorem C93_data v v' : data v -> data v' -> unquoted v -> unquoted v' -> short 100 v -> short 100 v' -> depth v < 200 -> depth v' < 200 ->
  py_repr v = py_repr v' -> v = v'.
Proof.
  intros A A' U U' S S' D D' E. apply (data_inj repr_limits v eq_refl v' A A' S S'). apply C93_same; auto using data_names.
Qed.

(** ** Cases *)
Definition ex_value : value := VStruct (lit "SplitHelper") [(lit "type", VStr (lit "Split")); (lit "pattern", VNew (lit "String") (VStr (lit " "))); (lit "invert", VBool false);
  (lit "vocab", VMap [(VStr (lit "a"), VInt 0); (VStr (lit "b"), VInt (-1))]); (lit "l", VSeq (repeat VNone 6))].
Definition is_word_char (c : char) : bool := ((48 <=? c) && (c <=? 57) || (65 <=? c) && (c <=? 90) || (97 <=? c) && (c <=? 122) || (c =? 95) || (c =? 45) || (c =? 46))%N.
Lemma word_check w : w <> [] -> forallb is_word_char w = true -> word w.
Proof. intros N F. split; [exact N|]. rewrite forallb_forall in F. apply Forall_forall. intros c I. specialize (F c I). unfold is_word_char in F. unfold word_char. lia. Qed.
Example ex_value_ok : plain_names ex_value /\ unquoted ex_value /\ depth ex_value = 2 /\
  py_str ex_value = Ok (lit "Split(pattern=String(" ++ quote ++ lit " " ++ quote ++ lit "), invert=False, vocab={" ++ quote ++ lit "a" ++ quote ++ lit ":0, " ++ quote ++ lit "b" ++ quote ++ lit ":-1}, l=[None, None, None, None, None, ...])").
Proof.
  split; [|split; [|split; vm_compute; reflexivity]].
  - unfold plain_names. cbn [parts ex_value flat_map app fst snd repeat]. repeat (apply Forall_cons; [try exact Logic.I; try (apply word_check; [discriminate|vm_compute; reflexivity])|]); try apply Forall_nil.
    cbn [plain_value]. split; [apply word_check; [discriminate|vm_compute; reflexivity]|]. split; [repeat (apply Forall_cons; [cbn [fst]; apply word_check; [discriminate|vm_compute; reflexivity]|]); apply Forall_nil|].
    intros k x l' E. injection E as _ _ <-. repeat (apply Forall_cons; [discriminate|]). apply Forall_nil.
  - unfold unquoted. cbn [parts ex_value flat_map app fst snd repeat]. repeat (apply Forall_cons; [try exact Logic.I; cbn; try tauto; intros H; repeat (destruct H as [H|H]; [discriminate|]); exact H|]). apply Forall_nil.
Qed.
Definition ex_data : value := VSeq [VMap [(VStr (lit "a"), VInt 12)]; VNone; VSeq []].
Example ex_data_ok : data ex_data /\ unquoted ex_data /\ short 100 ex_data /\ depth ex_data = 2.
Proof.
  split; [cbn; tauto|]. split; [|split; [|reflexivity]].
  - unfold unquoted. cbn [parts ex_data flat_map app fst snd]. repeat (apply Forall_cons; [try exact Logic.I; cbn; intros H; repeat (destruct H as [H|H]; [discriminate|]); exact H|]). apply Forall_nil.
  - unfold short. cbn [parts ex_data flat_map app fst snd]. repeat (apply Forall_cons; [cbn; try exact Logic.I; lia|]). apply Forall_nil.
Qed.

(** ** What does not hold *)
(** [str] panics on a text whose 100th byte is inside a character: a tokenizer with such a
    token in its first five cannot be printed. *)
Theorem C93_cut_refuted : exists t, py_str (VStr t) = Panic /\ py_repr (VStr t) = Ok (quote ++ t ++ quote).
Proof. exists (repeat 97 99 ++ [233; 97])%N. split; vm_compute; reflexivity. Qed.
(** Quotes are not escaped: different lists have the same text. *)
Theorem C93_quotes_refuted : exists l l', l <> l' /\ length l <> length l' /\ py_repr (VSeq (map VStr l)) = py_repr (VSeq (map VStr l')).
Proof.
  exists [lit "a" ++ quote ++ lit ", " ++ quote ++ lit "b"], [lit "a"; lit "b"]. split; [discriminate|]. split; [discriminate|]. vm_compute. reflexivity.
Qed.
(** A list of as many elements as the limit is not shown whole: the sixth is replaced by dots. *)
Theorem C93_limit_refuted : py_str (VSeq (map VInt [1; 2; 3; 4; 5; 6]%Z)) = Ok (lit "[1, 2, 3, 4, 5, ...]") /\
  py_str (VSeq (map VInt [1; 2; 3; 4; 5; 7]%Z)) = Ok (lit "[1, 2, 3, 4, 5, ...]").
Proof. split; vm_compute; reflexivity. Qed.
(** At 20 levels the counters of two levels are mixed: the second element of a list of two is hidden. *)
Fixpoint nested (n : nat) (v : value) : value := match n with 0 => v | S n' => VSeq [nested n' v] end.
Theorem C93_deep_refuted : exists v, depth (nested 17 v) = 20 /\
  py_str v = Ok (lit "[1, 2, 3, 4, [[], 5]]") /\ py_str (nested 17 v) = Ok (repeat 91%N 17 ++ lit "[1, 2, 3, 4, [[], ...]]" ++ repeat 93%N 17).
Proof. exists (VSeq [VInt 1; VInt 2; VInt 3; VInt 4; VSeq [VSeq []; VInt 5]]). repeat split; vm_compute; reflexivity. Qed.
