(** A normalizer as the tokenizer uses it.
    Source: /repo/tokenizers/src/tokenizer/added_vocabulary.rs. *)
From Verif Require Import Base NormModel NormalizersModel.

(** [normalizer.map(|n| n.normalize(&mut s))], added_vocabulary.rs:555: the result is
    dropped.  A normalizer that fails in the middle of a sequence leaves what the ones
    before it did; here the text is left as it was (the normalizers modelled do not
    fail, see C68). *)
Definition run_normalizer (T : tables) (n : normalizer) (ns : nstring) : nstring :=
  match normalize T n ns with Ok ns' => ns' | _ => ns end.
