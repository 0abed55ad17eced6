(** C101: what training a BPE or WordPiece model on counted words gives. *)
From Verif Require Import Base EncodingModel BpeModel BpeSpec BpeTrainModel BpeTrainSpec AddedModel AddedSpec TokenizerFilesModel.

(** The model [m] was learnt from the words [wc] with the settings [tr]: its tokens are
    the special tokens, the kept characters, their decorated forms, and then the results
    of the merges; at every step the most frequent pair was merged, until there were
    enough tokens or no pair was frequent enough ([learns], see BpeTrainSpec). *)
Definition taught (tr : trainer) (wc : list (str * N)) (m : bpe) : Prop :=
  exists toks first al cp ms,
    vocabulary m toks /\ kept_alphabet tr wc al /\ first_tokens tr wc al first /\ spelled_corpus tr first wc cp /\ ranked m ms /\
    length toks <= Nat.max (tr_vocab_size tr) (length first) /\
    (plain tr -> new_results cp ms) /\ (new_results cp ms -> exists cp', learns tr first cp ms toks cp').

(** The special tokens have the ids 0, 1, ..., in the order in which they were given. *)
Definition first_ids {W} (special : list added_token) (g : config W) : Prop :=
  NoDup (map at_content special) -> forall k t, nth_error special k = Some t ->
    tk_token_to_id (model_vocabulary (g_model g)) (g_added g) (at_content t) = Some (N.of_nat k).

(** The number of tokens, with and without the added ones: they are all of the model. *)
Definition all_tokens {W} (g : config W) (n : nat) : Prop :=
  forall with_added, get_vocab_size (model_vocabulary (g_model g)) (g_added g) with_added = Ok n.
