(** Vocabulary of the round trip of texts cut by Metaspace (C79). *)
From Verif Require Import Base StrBytes Utf8 AMap NormModel EncodingModel DecodersModel DecodersSpec TokenizerModel PreTokModel AddedModel AddedSpec AddedProps.

(** The model spells [w]: its tokens for [w] written one after the other are [w],
    each is a token of the vocabulary with its id, at a place inside [w]. *)
Definition spells (mv : model_vocab) (answer : str -> res unit (list token)) (w : str) : Prop :=
  exists toks, answer w = Ok toks /\ concat (map t_value toks) = w /\
    Forall (fun t => t_value t <> [] /\ mv_token_to_id mv (t_value t) = Some (t_id t) /\
                     fst (t_offsets t) < snd (t_offsets t) <= blen w) toks.

(** The words Metaspace can make of [s]: a part of [s] with marks for its spaces, or
    this with a mark in front. *)
Definition word_of (rep : char) (s w : str) : Prop :=
  w <> [] /\ exists a x b, s = a ++ x ++ b /\ (w = marked rep x \/ w = rep :: marked rep x).

(** A tokenizer that does not rewrite the text and cuts it with Metaspace; [mv] is
    the vocabulary of its model and [offered] are the tokens given to
    [add_tokens] and [add_special_tokens], which take no blanks. *)
Definition metaspace_tokenizer (t : tokenizer) (mv : model_vocab) (rep : char) (scheme : prepend_scheme) (offered : list added_token) : Prop :=
  (is_scalar rep = true /\ rep <> 32%N) /\
  (tz_normalizer t = (fun ns => ns) /\ tz_pre_tokenizer t = Some (metaspace_pre_tokenize rep scheme true)) /\
  (exists build taken, added_history build mv no_norm (tz_added t) offered taken) /\
  Forall (fun tk => at_lstrip tk = false /\ at_rstrip tk = false) offered.

(** What decoding shows for the parts of a text: [true] marks an added token.  A
    part that comes after another has a space put in front of it if the scheme is
    [Always] (unless it begins with one); the first part is shown as it is, without
    one leading space unless the scheme is [Never]. *)
Definition later_part (scheme : prepend_scheme) (part : bool * str) : str :=
  if fst part then snd part else with_space (match scheme with SAlways => true | _ => false end) (snd part).
Definition shown_parts (scheme : prepend_scheme) (parts : list (bool * str)) : str :=
  match parts with
  | (false, x) :: rest => (match scheme with SNever => x | _ => drop_one_space x end) ++ flat_map (later_part scheme) rest
  | _ => flat_map (later_part scheme) parts
  end.
