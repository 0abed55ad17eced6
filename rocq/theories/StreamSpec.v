(** Specification vocabulary for streaming decoding (C31). *)
From Verif Require Import Base Utf8 StreamModel.

(** The text does not end with the replacement character. *)
Definition complete (s : str) : Prop := forall u, s <> u ++ [65533%N].

(** The texts produced by a list of outputs. *)
Definition texts {E} (outs : list (res E (option str))) : list str :=
  flat_map (fun o => match o with Ok (Some t) => [t] | _ => [] end) outs.
Definition succeeded {E} (outs : list (res E (option str))) : Prop :=
  Forall (fun o => exists t, o = Ok t) outs.

(** Decoding of a list of tokens: what is added by further tokens to a complete
    text is already seen from a part of the tokens, if the tokens before that
    part make a complete text. *)
Definition local {E} (dec : list str -> res E str) : Prop :=
  (forall s, dec [] = Ok s -> s = []) /\
  forall before part more p q r x,
    before <> [] -> part <> [] ->
    dec before = Ok p -> complete p -> dec (before ++ part) = Ok q -> complete q ->
    dec part = Ok r -> dec (part ++ more) = Ok (r ++ x) ->
    dec (before ++ part ++ more) = Ok (q ++ x).

(** Decoding succeeds, and further tokens only add to a complete text, the same
    whether the whole or such a part is decoded. *)
Definition steady {E} (dec : list str -> res E str) : Prop :=
  dec [] = Ok [] /\
  (forall toks, exists s, dec toks = Ok s) /\
  (forall part more r, part <> [] -> dec part = Ok r -> complete r -> exists x, dec (part ++ more) = Ok (r ++ x)) /\
  (forall before part more p q r,
    before <> [] -> part <> [] ->
    dec before = Ok p -> complete p -> dec (before ++ part) = Ok q -> complete q ->
    dec part = Ok r -> exists x, dec (part ++ more) = Ok (r ++ x) /\ dec (before ++ part ++ more) = Ok (q ++ x)).
