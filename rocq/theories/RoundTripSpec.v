(** Vocabulary of the round trip from a text to ids and back (C69). *)
From Verif Require Import Base StrBytes Utf8 AMap NormModel EncodingModel BpeWordModel BpeWordSpec BpeModel BpeSpec
  ProcessorsModel ProcessorsSpec DecodersModel DecodersSpec PreTokenizersModel PreTokenizersSpec TokenizerModel AddedModel AddedSpec AddedProps RoundTripModel.

(** Every byte has its token of one character. *)
Definition full_alphabet (vocab : list (str * N)) : Prop :=
  forall b, (b < 256)%N -> In [byte_char b] (map fst vocab).

(** A text that the byte-level decoder leaves as it is: printable ASCII, or with a
    character outside the alphabet. *)
Definition reads_back (c : str) : Prop :=
  text c /\ (Forall (fun x => (33 <= x <= 126)%N) c \/ exists x, In x c /\ forall b, (b < 256)%N -> byte_char b <> x).

(** The added tokens, as [get_added_tokens_decoder] lists them: none takes the
    blanks around it away, and the decoder leaves them as they are. *)
Definition faithful_added (av : added_vocab) : Prop :=
  forall i t, aget N.eqb i (av_map_r av) = Some t ->
    at_lstrip t = false /\ at_rstrip t = false /\ reads_back (at_content t).

(** Pre-tokenizers that only cut. *)
Definition only_cutting (p : pre_tokenizer) : Prop :=
  match p with
  | PtSplit _ b _ | PtPunctuation b => b <> Removed
  | PtDigits _ | PtFixed _ => True
  | _ => False
  end.

(** ByteLevel without the added space, alone or after any number of cuts. *)
Inductive byte_level_pipeline : pre_tokenizer -> Prop :=
| bl_alone use_regex : byte_level_pipeline (PtByteLevel false use_regex)
| bl_sequence l use_regex : Forall only_cutting l -> byte_level_pipeline (PtSequence (l ++ [PtByteLevel false use_regex])).

(** A byte-level BPE tokenizer: no normalizer, a byte-level pre-tokenizer, a BPE
    model without affixes (whatever its merges, dropout and [ignore_merges]) whose
    ids are its own, and added tokens given through the API.  [mv] is the
    vocabulary of the model. *)
Definition byte_level_bpe (t : tokenizer) (mv : model_vocab) : Prop :=
  exists T p pop vocab merges m draws build offered taken,
    (sane T /\ usable p /\ byte_level_pipeline p /\ heap_ok pop) /\
    (built vocab merges None m /\ b_suffix m = None /\ NoDup (map snd vocab) /\ full_alphabet vocab /\ dense mv) /\
    (mv = bpe_vocabulary m /\ tz_normalizer t = (fun ns => ns) /\
     tz_pre_tokenizer t = Some (pre_tokenize T p) /\ tz_model t = bpe_model pop m draws) /\
    (added_history build mv no_norm (tz_added t) offered taken /\ faithful_added (tz_added t)).

(** The ids whose token is special. *)
Definition special_id (mv : model_vocab) (av : added_vocab) (i : N) : Prop :=
  exists c, tk_id_to_token mv av i = Some c /\ av_is_special av c = true.

(** The post-processors that put ids around a single text, and these ids. *)
Inductive adds_around : processor -> list N -> Prop :=
| aa_bert sep cls : adds_around (PBert sep cls) [snd cls; snd sep]
| aa_roberta sep cls trim aps : adds_around (PRoberta sep cls trim aps) [snd cls; snd sep]
| aa_byte_level trim aps : adds_around (PByteLevel trim aps) []
| aa_template bld tm segs :
    ProcessorsModel.build bld = Ok tm -> special_ok (tm_special tm) ->
    uses_once (tm_single tm) false -> uses_once (tm_pair tm) true ->
    template_layout (tm_special tm) (tm_single tm) = Some segs ->
    adds_around (PTemplate tm) (flat_map (fun seg => match seg with Added toks _ => map snd toks | Input _ _ => [] end) segs).
