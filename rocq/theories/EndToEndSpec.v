(** Specification vocabulary for whole encodings of raw texts, words and pairs. *)
From Verif Require Import Base StrBytes EncodingModel EncodingSpec NormModel NormSpec PreTokModel PreTokSpec AddedModel AddedSpec TokenizerModel.

(** A pre-tokenizer that only works on the texts of the pieces: each piece stays a
    piece of the text being encoded, and pieces that already have tokens (the added
    tokens) are left alone. *)
Definition sound_pre_tokenizer (f : pretok -> res unit pretok) : Prop :=
  forall s pt pt', inside_history s pt -> f pt = Ok pt' ->
    inside_history s pt' /\
    (forall sp, In sp (pt_splits pt') -> sp_tokens sp = None \/ In sp (pt_splits pt)).

(** A model whose tokens cover a non-empty part of the text they were made from. *)
Definition sound_model (g : str -> res unit (list token)) : Prop :=
  forall s ts, g s = Ok ts -> Forall (fun t => fst (t_offsets t) < snd (t_offsets t) <= blen s) ts.

(** A normalizer that keeps its text attached to the same original. *)
Definition sound_normalizer (n : nstring -> nstring) : Prop :=
  forall ns, aligned ns -> aligned (n ns) /\ same_source ns (n ns).

(** Added tokens that came through the API, none of which takes in whitespace
    that another one needs. *)
Definition sound_added (is_space : char -> bool) (av : added_vocab) : Prop :=
  exists build m NF offered taken,
    model_ok m /\ dense m /\ added_history build m NF av offered taken /\
    (forall pats, av_trie av = Some pats \/ av_ntrie av = Some pats -> strip_safe is_space av pats).

Definition sound (t : tokenizer) : Prop :=
  sound_added (tz_space t) (tz_added t) /\ sound_normalizer (tz_normalizer t) /\
  (forall f, tz_pre_tokenizer t = Some f -> sound_pre_tokenizer f) /\ sound_model (tz_model t).

(** A token of the text [s]: it has type id [ty], a word, offsets in bytes that are
    a range of [s] between characters, and both masks say it is an ordinary token. *)
Definition token_of (s : str) (ty : N) (r : row) : Prop :=
  r_type r = ty /\ r_special r = 0%N /\ r_attention r = 1%N /\ r_word r <> None /\
  fst (r_off r) <= snd (r_off r) <= blen s /\
  is_boundary s (fst (r_off r)) = true /\ is_boundary s (snd (r_off r)) = true.

(** A token of the text seen as a token of word number [i] of a list of words. *)
Definition in_word (ot : offset_type) (i : N) (r : row) : row :=
  match ot with
  | ONone => r
  | _ => Row (r_id r) (r_type r) (r_token r) (Some i) (r_off r) (r_special r) (r_attention r)
  end.
