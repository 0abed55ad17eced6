(** A BPE model as the tokenizer sees it.
    Source: /repo/tokenizers/src/models/bpe/model.rs. *)
From Verif Require Import Base EncodingModel BpeWordModel BpeModel AddedModel.

(** [token_to_id], [id_to_token], [get_vocab], [get_vocab_size] of [impl Model for BPE],
    bpe/model.rs:593-599, 614-620. *)
Definition bpe_vocabulary (m : bpe) : model_vocab :=
  mkModel (b_id m) (b_token m) (b_vocab m) (length (b_vocab m)).

(** [tokenize] of [impl Model for BPE], bpe/model.rs:601-612, with its error boxed.
    The draws of the dropout are a function of the word: that two calls on one word
    draw differently is not modelled here. *)
Definition bpe_model (pop : list merge -> option (merge * list merge)) (m : bpe) (draws : str -> nat -> bool) (s : str) : res unit (list token) :=
  match bpe_tokenize pop m (draws s) s with Ok ts => Ok ts | Err _ => Err tt | Panic => Panic end.
