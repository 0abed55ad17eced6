(** Specification of the ready-made byte-level tokenizer (C96). *)
From Verif Require Import Base StrBytes EncodingModel AddedModel ByteLevelModel BpeModel PreTokModel TokenizerModel TokenizerFilesModel TokenizerTrainSpec
  DecodersSpec RoundTripSpec ImplModel.

(** Options that change no text: no prefix space, no normalizer, no affixes. *)
Definition plain_options (o : bl_options) : Prop :=
  bo_add_prefix_space o = false /\ bo_lowercase o = false /\ or_empty (bo_unicode o) = [] /\
  or_empty (bo_prefix o) = [] /\ or_empty (bo_suffix o) = [].

(** Tokens are added to a tokenizer, in any number of calls that succeed, and
    [encode_special_tokens] is switched in between. *)
Inductive extended {W} (P : platform W) (g : config W) : list added_token -> config W -> Prop :=
| ex_same : extended P g [] g
| ex_add ts g1 more g2 n : extended P g ts g1 -> tokenizer_add P g1 more = (g2, Some n) -> extended P g (ts ++ more) g2
| ex_switch ts g1 b : extended P g ts g1 -> extended P g ts (encode_special_tokens g1 b).

(** Tokens that take no text away and that the decoder leaves as they are. *)
Definition faithful_tokens (ts : list added_token) : Prop :=
  forall t, In t ts -> at_content t <> [] -> at_lstrip t = false /\ at_rstrip t = false /\ reads_back (at_content t).

(** Encoding a text (in whatever way) and decoding all the ids gives it back. *)
Definition keeps {W} (P : platform W) (g : config W) (s : str) : Prop :=
  forall ot add, exists e, encode (runtime P g) ot (Single (Raw s)) add = Ok e /\ decode_ids P g false (ids e) = Ok s.
(** The same when special tokens are left out of the decoding, as [decode] does by default. *)
Definition keeps_skipping {W} (P : platform W) (g : config W) (s : str) : Prop :=
  forall ot add, exists e, encode (runtime P g) ot (Single (Raw s)) add = Ok e /\ decode_ids P g true (ids e) = Ok s.

(** No special token is written in the text. *)
Definition no_special_in (ts : list added_token) (s : str) : Prop :=
  forall t, In t ts -> at_content t <> [] -> at_special t = true -> ~ inside_text (at_content t) s.

(** The size of the training texts, in bytes. *)
Definition total_bytes (texts : list str) : nat := list_sum (map blen texts).
