(** Specification of the ready-made BERT tokenizer (C97). *)
From Verif Require Import Base StrBytes AddedModel WordPieceModel WordPieceSpec NormalizersModel NormalizersSpec PreTokenizersModel PreTokenizersSpec
  TokenizerModel TokenizerFilesModel SpmTripSpec WordTripSpec ImplBertModel.

(** A vocabulary with one id for each token, below its size. *)
Definition sound_vocab (v : list (str * N)) : Prop :=
  NoDup (map fst v) /\ NoDup (map snd v) /\ forall t i, In (t, i) v -> (i < N.of_nat (length v))%N.

(** The Unicode tables are as usual, the prefix of continuations begins with a
    punctuation mark and has at least two characters, as "##", and the special tokens
    are like "[UNK]": a punctuation mark and more, and no continuation. *)
Definition bert_like {W} (P : platform W) (prefix unk : str) (special : list str) : Prop :=
  tables_ok (pf_norm P) /\ sane (pf_pre P) /\ is_ws (pf_pre P) 32%N = true /\
  (exists c d y, prefix = c :: d :: y /\ punctuation (pf_pre P) c) /\
  Forall (bracketed (pf_pre P) prefix) special /\ not_continued prefix unk /\ tidy unk.

(** Tokens that may be added: searched in the text as given, taking no blanks, and if
    special, like "[UNK]". *)
Definition harmless {W} (P : platform W) (prefix : str) (t : added_token) : Prop :=
  at_normalized t = false /\ at_lstrip t = false /\ at_rstrip t = false /\ (at_special t = true -> bracketed (pf_pre P) prefix (at_content t)).

(** The normalizer that the options ask for. *)
Definition bert_normal (o : bert_options) : normalizer := NBert (wo_clean o) (wo_chinese o) (wo_accents o) (wo_lowercase o).
