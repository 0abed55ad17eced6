(** Specification of the ready-made BPE tokenizer with an end of word suffix (C98). *)
From Coq Require Import String.
From Verif Require Import Base StrBytes AddedModel BpeWordSpec BpeModel NormalizersModel NormalizersSpec DecodersSpec PreTokenizersModel PreTokenizersSpec
  TokenizerModel ModelFilesModel TokenizerFilesModel SpmTripSpec WordTripSpec CharTripSpec ImplBertModel ImplBertSpec ImplCharModel.

(** The normalizers that the options ask for, in order. *)
Definition unicode_form (name : option str) : list normalizer :=
  match name with
  | None => []
  | Some n => if str_eqb n (key "nfc") then [NNFC] else if str_eqb n (key "nfd") then [NNFD] else if str_eqb n (key "nfkc") then [NNFKC] else if str_eqb n (key "nfkd") then [NNFKD] else []
  end.
Definition char_steps (o : char_options) : list normalizer :=
  unicode_form (co_unicode o) ++ (if co_bert o then [NBert true true None false] else []) ++ (if co_lowercase o then [NLowercase] else []).
Definition char_normal (o : char_options) : normalizer := match char_steps o with [n] => n | l => NSequence l end.
Definition char_cut (o : char_options) : pre_tokenizer := if co_spaces_only o then PtWhitespaceSplit else PtBert.
(** A name of a Unicode form, or none. *)
Definition named_form (name : option str) : Prop :=
  match name with None => True | Some n => n = [] \/ n = key "nfc" \/ n = key "nfd" \/ n = key "nfkc" \/ n = key "nfkd" end.

(** The Unicode tables and the queue of BPE are as usual. *)
Definition usual {W} (P : platform W) : Prop :=
  tables_ok (pf_norm P) /\ sane (pf_pre P) /\ is_ws (pf_pre P) 32%N = true /\ heap_ok (pf_pop P).

(** A text does not end with the suffix. *)
Definition unended (sf t : str) : Prop := forall u, t <> u ++ sf.
(** Tokens that may be added: searched in the text as given, taking no blanks; if
    special, they begin with a punctuation mark and have more characters, as "<unk>",
    and do not end with the suffix. *)
Definition set_apart {W} (P : platform W) (sf : str) (t : added_token) : Prop :=
  at_normalized t = false /\ at_lstrip t = false /\ at_rstrip t = false /\
  (at_special t = true -> unended sf (at_content t) /\ exists c d y, at_content t = c :: d :: y /\ punctuation (pf_pre P) c).
(** When texts are split at white space only: if special, they are not in the given text
    after normalization. *)
Definition set_aside (sf : str) (s : str) (t : added_token) : Prop :=
  at_normalized t = false /\ at_lstrip t = false /\ at_rstrip t = false /\
  (at_special t = true -> unended sf (at_content t) /\ ~ occurs (at_content t) s).
