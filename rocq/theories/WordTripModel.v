(** The WordPiece model as the model of a tokenizer (C89). *)
From Verif Require Import Base EncodingModel WordPieceModel AddedModel.

(** [token_to_id], [id_to_token], [get_vocab] and [get_vocab_size] of [impl Model for
    WordPiece], wordpiece/mod.rs:216-222, 285-291. *)
Definition wp_vocabulary (m : wordpiece) : model_vocab :=
  mkModel (wp_token_to_id m) (wp_id_to_token m) (w_vocab m) (length (w_vocab m)).

(** [tokenize] of [impl Model for WordPiece], wordpiece/mod.rs:224-283, with its
    error boxed. *)
Definition wp_model (m : wordpiece) (s : str) : res unit (list token) :=
  match wp_tokenize m s with Ok a => Ok a | Err _ => Err tt | Panic => Panic end.
