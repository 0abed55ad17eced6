(** Vocabulary of the round trip of tokenizers that cut texts into words (C89). *)
From Verif Require Import Base StrBytes AMap NormModel EncodingModel NormalizersModel NormalizersSpec PreTokenizersModel PreTokenizersSpec
  TokenizerModel AddedModel AddedSpec PatternModel PatternSpec DecodersModel DecodersSpec WordPieceModel WordPieceSpec SpmTripModel SpmTripSpec WordTripModel.

(** A tokenizer with a normalizer and a pre-tokenizer, whatever they are, and added
    tokens that are searched in the text as it is given and take no blanks (special
    tokens are so by default); [offered] are the tokens given to [add_tokens] and
    [add_special_tokens]. *)
Definition word_tokenizer (t : tokenizer) (mv : model_vocab) (TN : NormalizersModel.tables) (nz : normalizer)
    (TP : PreTokenizersModel.tables) (p : pre_tokenizer) (offered : list added_token) : Prop :=
  (tables_ok TN /\ NormalizersSpec.usable nz /\ tz_normalizer t = run_normalizer TN nz) /\
  (sane TP /\ PreTokenizersSpec.usable p /\ tz_pre_tokenizer t = Some (pre_tokenize TP p)) /\
  (exists build NF taken, added_history build mv NF (tz_added t) offered taken) /\
  Forall (fun tk => at_normalized tk = false /\ at_lstrip tk = false /\ at_rstrip tk = false) offered.

(** The text as the normalizer leaves it, and its words: what the pre-tokenizer
    promises to cut it into (C65). *)
Definition normal_text (TN : NormalizersModel.tables) (nz : normalizer) (s : str) : str :=
  match s with [] => [] | _ => n_normalized (run_normalizer TN nz (nfrom s)) end.
Definition words_of (TP : PreTokenizersModel.tables) (p : pre_tokenizer) (s : str) (ws : list str) : Prop :=
  match s with [] => ws = [] | _ => pieces_of TP p s ws end.

(** A word in the model's answer: tokens of the vocabulary, each over a part of it. *)
Definition answers (mv : model_vocab) (answer : str -> res unit (list token)) (w : str) (toks : list token) : Prop :=
  answer w = Ok toks /\
  Forall (fun t => mv_token_to_id mv (t_value t) = Some (t_id t) /\ fst (t_offsets t) < snd (t_offsets t) <= blen w) toks.

(** ** WordPiece *)
(** The vocabulary spells the word, longest pieces first. *)
Definition spelt (m : wordpiece) (w : str) : Prop := length w <= w_max m /\ exists xs, greedy (w_vocab m) (w_prefix m) [] w xs.
(** What decoding shows of the words: the word itself if it can be spelt, else the
    unknown token, or nothing when unknown tokens are dropped. *)
Inductive told (m : wordpiece) (drop : bool) : list str -> list str -> Prop :=
| told_nil : told m drop [] []
| told_spelt w ws os : spelt m w -> told m drop ws os -> told m drop (w :: ws) (w :: os)
| told_unknown w ws os : ~ spelt m w -> told m drop ws os -> told m drop (w :: ws) (if drop then os else w_unk m :: os).

(** [x] does not begin with the prefix. *)
Definition not_continued (prefix x : str) : Prop := forall y : str, x <> prefix ++ y.

(** A vocabulary with one id for each token, below its size, and the unknown token,
    which does not look like a continuation. *)
Definition sound_wordpiece (m : wordpiece) : Prop :=
  NoDup (map fst (w_vocab m)) /\ NoDup (map snd (w_vocab m)) /\ dense (wp_vocabulary m) /\
  wp_token_to_id m (w_unk m) <> None /\ not_continued (w_prefix m) (w_unk m).

(** Words in a sentence: a space before every word but the first and, if [cleanup],
    but those that are a full stop, a question mark, an exclamation mark or a comma. *)
Definition hugging (cleanup : bool) (w : str) : bool := cleanup && existsb (str_eqb w) [[46]; [63]; [33]; [44]]%N.
Definition spaced_word (cleanup : bool) (w : str) : str := if hugging cleanup w then w else 32%N :: w.
Definition sentence (cleanup : bool) (ws : list str) : str :=
  match ws with [] => [] | w :: r => w ++ flat_map (spaced_word cleanup) r end.

(** A token such as "[UNK]": a punctuation mark and more, not a continuation, and
    nothing the cleanup of the decoder changes. *)
Definition bracketed (TP : PreTokenizersModel.tables) (prefix x : str) : Prop :=
  (exists c d y, x = c :: d :: y /\ punctuation TP c) /\ not_continued prefix x.
Definition tidy (x : str) : Prop := Forall (fun r : str * str => ~ occurs (fst r) (32%N :: x)) clean_rules.
