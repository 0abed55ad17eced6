(** Vocabulary of the round trip of tokenizers with one token per word, or with an end
    of word suffix (C90, C91). *)
From Verif Require Import Base StrBytes BpeModel BpeSpec AddedModel AddedSpec RoundTripModel WordPieceModel DecodersModel PreTokenizersModel PreTokenizersSpec WordTripSpec CharTripModel.

(** ** BPE with an end of word suffix, as [CharBPETokenizer] makes it *)
Definition char_bpe (vocab : list (str * N)) (merges : list (str * str)) (sf : str) (m : bpe) : Prop :=
  built vocab merges None m /\ b_suffix m = Some sf /\ b_ignore_merges m = false /\ sf <> [] /\
  NoDup (map snd vocab) /\ dense (bpe_vocabulary m).
(** The alphabet of the vocabulary has every character of the word: the last one with
    the suffix, the others without. *)
Definition in_alphabet (vocab : list (str * N)) (sf w : str) : Prop :=
  w <> [] /\ forall p c q, w = p ++ c :: q -> In (c :: match q with [] => sf | _ => [] end) (map fst vocab).
(** After the word, the suffix is found there only. *)
Definition ends_once (sf w : str) : Prop := forall a b : str, w ++ sf = a ++ sf ++ b -> b = [].
(** A suffix such as "</w>": it begins with a punctuation mark, and another character. *)
Definition marked (TP : tables) (sf : str) : Prop := exists c d y, sf = c :: d :: y /\ d <> c /\ punctuation TP c.

(** ** WordLevel *)
(** The words, with the unknown token for those that are not in the vocabulary. *)
Definition listed (m : wordlevel) (w o : str) : Prop :=
  (In w (map fst (l_vocab m)) /\ o = w) \/ (~ In w (map fst (l_vocab m)) /\ o = l_unk m).
Definition sound_wordlevel (m : wordlevel) : Prop :=
  NoDup (map fst (l_vocab m)) /\ NoDup (map snd (l_vocab m)) /\ dense (wl_vocabulary m) /\ wl_token_to_id m (l_unk m) <> None.
