(** What keyword arguments mean. *)
From Verif Require Import Base StrBytes Utf8 EncodingModel TruncPadModel AddedModel TokenizerModel PySettingsModel.
From Coq Require Import ZArith String.

(** The value of a keyword argument. *)
Definition given (kw : kwargs) (name : string) (v : pyval) : Prop := In (text_of name, v) kw.
Definition absent (kw : kwargs) (name : string) : Prop := forall v, ~ given kw name v.
(** [says kw name P Q]: the argument is given and its value satisfies [P], or it is not
    given and [Q] holds. *)
Definition says (kw : kwargs) (name : string) (P : pyval -> Prop) (Q : Prop) : Prop :=
  (exists v, given kw name v /\ P v) \/ (absent kw name /\ Q).
Definition a_dict (kw : kwargs) : Prop := NoDup (map fst kw).

(** Numbers below a limit; in Python [True] and [False] are 1 and 0. *)
Definition number (limit n : Z) (v : pyval) : Prop := (0 <= n < limit)%Z /\ (v = VInt n \/ v = VBool true /\ n = 1%Z \/ v = VBool false /\ n = 0%Z).
Definition size_of (n : nat) (v : pyval) : Prop := number (2 ^ 64) (Z.of_nat n) v.
Definition id_of (n : N) (v : pyval) : Prop := number (2 ^ 32) (Z.of_N n) v.
Definition word (s : string) (v : pyval) : Prop := v = VStr (text_of s).
Definition text_is (s : str) (v : pyval) : Prop := v = VStr s /\ forallb is_scalar s = true.

Definition strategy_is (s : trunc_strategy) (v : pyval) : Prop :=
  match s with LongestFirst => word "longest_first" v | OnlyFirst => word "only_first" v | OnlySecond => word "only_second" v end.
Definition direction_is (d : direction) (v : pyval) : Prop := match d with DLeft => word "left" v | DRight => word "right" v end.

(** The documented arguments and defaults of [enable_truncation]... *)
Definition truncation_means (kw : kwargs) (p : trunc_params) : Prop :=
  says kw "max_length" (size_of (tp_max_length p)) False /\
  says kw "stride" (size_of (tp_stride p)) (tp_stride p = 0) /\
  says kw "strategy" (strategy_is (tp_strategy p)) (tp_strategy p = LongestFirst) /\
  says kw "direction" (direction_is (tp_direction p)) (tp_direction p = DRight).

(** ... and of [enable_padding] ([max_length] is the old name of [length]). *)
Definition length_is (s : pad_strategy) (v : pyval) : Prop := match s with BatchLongest => v = VNone | Fixed n => size_of n v end.
Definition multiple_is (m : option nat) (v : pyval) : Prop := match m with None => v = VNone | Some n => size_of n v end.
Definition padding_means (kw : kwargs) (p : pad_params) : Prop :=
  says kw "length" (length_is (pp_strategy p)) (says kw "max_length" (length_is (pp_strategy p)) (pp_strategy p = BatchLongest)) /\
  says kw "pad_to_multiple_of" (multiple_is (pp_multiple p)) (pp_multiple p = None) /\
  says kw "pad_id" (id_of (pp_id p)) (pp_id p = 0%N) /\
  says kw "pad_type_id" (id_of (pp_type_id p)) (pp_type_id p = 0%N) /\
  says kw "pad_token" (text_is (pp_token p)) (pp_token p = text_of "[PAD]") /\
  says kw "direction" (direction_is (pp_direction p)) (pp_direction p = DRight).

(** The arguments of [AddedToken]: tokens are normalized unless they are special. *)
Definition token_means (content : str) (kw : kwargs) (a : added_token) : Prop :=
  at_content a = content /\
  says kw "special" (eq (VBool (at_special a))) (at_special a = false) /\
  says kw "single_word" (eq (VBool (at_single_word a))) (at_single_word a = false) /\
  says kw "lstrip" (eq (VBool (at_lstrip a))) (at_lstrip a = false) /\
  says kw "rstrip" (eq (VBool (at_rstrip a))) (at_rstrip a = false) /\
  says kw "normalized" (eq (VBool (at_normalized a))) (at_normalized a = negb (at_special a)).

(** Parameters that fit the machine. *)
Definition fits_truncation (p : trunc_params) : Prop := (Z.of_nat (tp_max_length p) < 2 ^ 64)%Z /\ (Z.of_nat (tp_stride p) < 2 ^ 64)%Z.
Definition fits_padding (p : pad_params) : Prop :=
  (match pp_strategy p with Fixed n => (Z.of_nat n < 2 ^ 64)%Z | BatchLongest => True end) /\
  (match pp_multiple p with Some n => (Z.of_nat n < 2 ^ 64)%Z | None => True end) /\
  (Z.of_N (pp_id p) < 2 ^ 32)%Z /\ (Z.of_N (pp_type_id p) < 2 ^ 32)%Z /\ forallb is_scalar (pp_token p) = true.

(** The tokens that items of a list stand for, with [add_tokens] and with
    [add_special_tokens]. *)
Definition is_item (heap : list py_token) (it : item) (a : added_token) : Prop :=
  match it with
  | ItStr s => forallb is_scalar s = true /\ token_means s [] a
  | ItTok i => exists u, nth_error heap i = Some u /\ a = get_token u
  | ItOther => False
  end.
Definition is_special_item (heap : list py_token) (it : item) (a : added_token) : Prop :=
  match it with
  | ItStr s => forallb is_scalar s = true /\ token_means s [(text_of "special", VBool true)] a
  | ItTok i => exists u, nth_error heap i = Some u /\ at_content a = pt_content u /\ at_special a = true /\
      at_single_word a = at_single_word (get_token u) /\ at_lstrip a = at_lstrip (get_token u) /\ at_rstrip a = at_rstrip (get_token u) /\
      (at_normalized a = true <-> pt_normalized u = Some true)
  | ItOther => False
  end.
