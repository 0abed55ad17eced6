(** The WordLevel model as the model of a tokenizer (C91). *)
From Verif Require Import Base EncodingModel WordPieceModel AddedModel.

(** [token_to_id], [id_to_token], [get_vocab] and [get_vocab_size] of [impl Model for
    WordLevel], wordlevel/mod.rs:180-194. *)
Definition wl_vocabulary (m : wordlevel) : model_vocab :=
  mkModel (wl_token_to_id m) (wl_id_to_token m) (l_vocab m) (length (l_vocab m)).

(** [tokenize] of [impl Model for WordLevel], wordlevel/mod.rs:162-178, with its error
    boxed. *)
Definition wl_model (m : wordlevel) (s : str) : res unit (list token) :=
  match wl_tokenize m s with Ok a => Ok a | Err _ => Err tt | Panic => Panic end.
