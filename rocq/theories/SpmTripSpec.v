(** Vocabulary of the round trip with byte fallback (C70). *)
From Verif Require Import Base StrBytes Utf8 AMap NormModel PatternModel EncodingModel BpeWordModel BpeWordSpec BpeModel BpeSpec
  DecodersModel DecodersSpec NormalizersModel TokenizerModel AddedModel AddedSpec RoundTripModel SpmTripModel.

(** The character that stands for a space. *)
Definition mark : char := 9601%N.

(** Put a mark in front, and marks for the spaces. *)
Definition spm_normalizer : normalizer := NSequence [NPrepend [mark]; NReplace (literal_scan [32%N] 0 0) [mark]].

(** Marks are spaces, byte tokens are bytes, all in one, without the first space. *)
Definition spm_decoder : decoder := DSequence [DReplace (literal_scan [mark] 0 0) [32%N]; DByteFallback; DFuse; DStrip 32%N 1 0].

(** The 256 tokens "<0x00>" to "<0xFF>". *)
Definition byte_tokens (vocab : list (str * N)) : Prop := forall b, (b < 256)%N -> In (byte_token b) (map fst vocab).

(** What the decoder would read as a byte has no part in merges. *)
Definition bytes_apart (merges : list (str * str)) : Prop :=
  forall a b, In (a, b) merges -> forall x, ~ byte_like a x /\ ~ byte_like b x /\ ~ byte_like (a ++ b) x.

(** An added token searched in the text as it is given, that takes no blanks, and
    that the decoder leaves as it is. *)
Definition plain_added (t : added_token) : Prop :=
  at_normalized t = false /\ at_lstrip t = false /\ at_rstrip t = false /\ forall b, ~ byte_like (at_content t) b.

(** A BPE tokenizer in the manner of SentencePiece: the normalizer above, no
    pre-tokenizer, a BPE model without affixes and with byte fallback (whatever its
    merges, dropout, unknown token and [ignore_merges]); [offered] are the tokens
    given to [add_tokens] and [add_special_tokens]. *)
Definition spm_bpe (t : tokenizer) (mv : model_vocab) (offered : list added_token) : Prop :=
  exists T pop vocab merges m draws build NF taken,
    (heap_ok pop /\ built vocab merges None m /\ b_suffix m = None /\ b_fallback m = true) /\
    (NoDup (map snd vocab) /\ byte_tokens vocab /\ In [mark] (map fst vocab) /\ bytes_apart merges /\ dense mv) /\
    (mv = bpe_vocabulary m /\ tz_normalizer t = run_normalizer T spm_normalizer /\
     tz_pre_tokenizer t = None /\ tz_model t = bpe_model pop m draws) /\
    (added_history build mv NF (tz_added t) offered taken /\ Forall plain_added offered).

(** The text cut as the search for added tokens cuts it (C28): each part, and
    whether it is an added token. *)
Definition cut_as (s : str) (l : list (option N * (nat * nat))) (parts : list (bool * str)) : Prop :=
  concat (map snd parts) = s /\
  Forall2 (fun (m : option N * (nat * nat)) (part : bool * str) =>
             str_get s (fst (snd m)) (snd (snd m)) = Some (snd part) /\
             fst part = match fst m with Some _ => true | None => false end) l parts.

(** Marks are shown as spaces. *)
Definition spaced (s : str) : str := map (fun c => if N.eqb c mark then 32%N else c) s.

(** Every part that is not an added token has a space put before it. *)
Definition shown (part : bool * str) : str := (if fst part then [] else [32%N]) ++ spaced (snd part).

(** None of the tokens is written in [s]. *)
Definition none_in (offered : list added_token) (s : str) : Prop :=
  Forall (fun t => at_content t = [] \/ ~ occurs (at_content t) s) offered.
