(** What the settings and helpers of the Node.js bindings are to do, in terms of the
    documentation and of the Python bindings. *)
From Verif Require Import Base Utf8 EncodingModel TruncPadModel AddedModel TokenizerModel NormalizersModel PySettingsModel NodeModel.
From Coq Require Import ZArith String.

(** The direction that is asked for; no direction is asked for by another text. *)
Definition asks_direction (o : option js_direction) (dflt d : direction) : Prop :=
  match o with
  | None => d = dflt
  | Some (JEnum x) => d = x
  | Some (JText s) => s = text_of "left" /\ d = DLeft \/ s = text_of "right" /\ d = DRight
  end.
Definition asks {A} (o : option A) (dflt a : A) : Prop := match o with Some x => a = x | None => a = dflt end.
Definition asks_truncation (max_length : nat) (options : option js_trunc) (p : trunc_params) : Prop :=
  tp_max_length p = max_length /\
  match options with
  | Some o => asks_direction (jt_direction o) DRight (tp_direction p) /\ asks (jt_strategy o) LongestFirst (tp_strategy p) /\ asks (jt_stride o) 0 (tp_stride p)
  | None => tp_direction p = DRight /\ tp_strategy p = LongestFirst /\ tp_stride p = 0
  end.
Definition asks_padding (o : js_pad) (p : pad_params) : Prop :=
  asks_direction (jp_direction o) DRight (pp_direction p) /\
  pp_strategy p = match jp_max_length o with Some n => Fixed n | None => BatchLongest end /\
  pp_multiple p = jp_multiple o /\ asks (jp_id o) 0%N (pp_id p) /\ asks (jp_type_id o) 0%N (pp_type_id p) /\ asks (jp_token o) (text_of "[PAD]") (pp_token p).

(** ** The same settings in Python *)
Definition optional {A} (name : string) (f : A -> pyval) (o : option A) : kwargs := match o with Some a => [(text_of name, f a)] | None => [] end.
Definition py_direction (d : js_direction) : pyval :=
  VStr (match d with JText s => s | JEnum DLeft => text_of "left" | JEnum DRight => text_of "right" end).
Definition py_strategy (s : trunc_strategy) : pyval :=
  VStr (text_of match s with LongestFirst => "longest_first" | OnlyFirst => "only_first" | OnlySecond => "only_second" end).
Definition py_size (n : nat) : pyval := VInt (Z.of_nat n).
Definition py_id (n : N) : pyval := VInt (Z.of_N n).
Definition python_truncation (max_length : nat) (options : option js_trunc) : kwargs :=
  (text_of "max_length", py_size max_length) ::
  match options with
  | None => []
  | Some o => optional "stride" py_size (jt_stride o) ++ optional "strategy" py_strategy (jt_strategy o) ++ optional "direction" py_direction (jt_direction o)
  end.
Definition python_padding (o : js_pad) : kwargs :=
  optional "length" py_size (jp_max_length o) ++ optional "direction" py_direction (jp_direction o) ++ optional "pad_to_multiple_of" py_size (jp_multiple o) ++
  optional "pad_id" py_id (jp_id o) ++ optional "pad_type_id" py_id (jp_type_id o) ++ optional "pad_token" VStr (jp_token o).
Definition python_added (special : bool) (options : option js_added) : kwargs :=
  (text_of "special", VBool special) ::
  match options with
  | None => []
  | Some o => optional "single_word" VBool (ja_single_word o) ++ optional "lstrip" VBool (ja_left_strip o) ++
              optional "rstrip" VBool (ja_right_strip o) ++ optional "normalized" VBool (ja_normalized o)
  end.
(** The numbers are [u32]s. *)
Definition u32 (n : nat) : Prop := (Z.of_nat n < 2 ^ 32)%Z.
Definition given_u32 (o : option nat) : Prop := match o with Some n => u32 n | None => True end.
Definition u32_truncation (options : option js_trunc) : Prop := match options with Some o => given_u32 (jt_stride o) | None => True end.
Definition u32_padding (o : js_pad) : Prop :=
  given_u32 (jp_max_length o) /\ given_u32 (jp_multiple o) /\
  match jp_id o with Some n => (n < 2 ^ 32)%N | None => True end /\ match jp_type_id o with Some n => (n < 2 ^ 32)%N | None => True end /\
  match jp_token o with Some s => forallb is_scalar s = true | None => True end.

(** ** Histories: which calls set the truncation and the padding, and to what *)
Definition sets_truncation (c : js_call) (tr : option trunc_params) : Prop :=
  match c with
  | CSetTruncation n o => exists p, asks_truncation n o p /\ tr = Some p
  | CDisableTruncation => tr = None
  | _ => False
  end.
Definition sets_padding (c : js_call) (pd : option pad_params) : Prop :=
  match c with
  | CSetPadding (Some o) => exists p, asks_padding o p /\ pd = Some p
  | CSetPadding None | CDisablePadding => pd = None
  | _ => False
  end.
(** [x] is what the last call that sets it says, or what it was before. *)
Definition last_set {A} (sets : js_call -> A -> Prop) (l : list js_call) (before x : A) : Prop :=
  (x = before /\ forall c y, In c l -> ~ sets c y) \/
  exists l1 c l2, l = l1 ++ c :: l2 /\ sets c x /\ forall c' y, In c' l2 -> ~ sets c' y.

(** ** Slices *)
(** An index counts from the end when it is negative. *)
Definition position (len : nat) (x : Z) : Z := if (x <? 0)%Z then (Z.of_nat len + x)%Z else x.
(** The characters from [a] to [b]. *)
Definition between_chars (s : str) (a b : Z) : str := firstn (Z.to_nat (b - a)) (skipn (Z.to_nat a) s).
(** [String.prototype.slice] of ECMAScript, on characters. *)
Definition clamp (len : nat) (x : Z) : Z := Z.max 0 (Z.min (position len x) (Z.of_nat len)).
Definition ecma_slice (s : str) (b e : option Z) : str :=
  let len := List.length s in
  between_chars s (clamp len (match b with Some x => x | None => 0%Z end)) (clamp len (match e with Some x => x | None => Z.of_nat len end)).

(** ** The normalizer that the documentation of [bertNormalizer] describes *)
Definition documented_bert (o : js_bert) : normalizer :=
  let dflt (x : option bool) := match x with Some b => b | None => true end in
  NBert (dflt (jb_clean_text o)) (dflt (jb_handle_chinese_chars o)) (Some (dflt (jb_strip_accents o))) (dflt (jb_lowercase o)).
