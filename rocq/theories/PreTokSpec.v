(** Specification vocabulary for pre-tokenised strings (C21-C24). *)
From Verif Require Import Base StrBytes EncodingModel EncodingSpec NormModel NormSpec PreTokModel.

(** [pieces] are consecutive parts of [ns], in order; the text that is in none
    of them consists of characters satisfying [P]. *)
Definition kept_parts {A} (marks : list (A * bool)) : list A := map fst (filter snd marks).

Definition cut_into (P : char -> Prop) (ns : nstring) (pieces : list nstring) : Prop :=
  exists marks : list (list (char * (nat * nat)) * bool),
    shows ns (concat (map fst marks)) /\
    (forall t, In (t, false) marks -> Forall (fun ca => P (fst ca)) t) /\
    Forall2 (fun t ns' => part_of ns t ns' /\ aligned ns') (kept_parts marks) pieces.

(** A splitting function that only cuts: on every well-formed input, what it
    returns is [cut_into P]. *)
Definition only_cuts {E} (P : char -> Prop) (f : nat -> nstring -> res E (list split)) : Prop :=
  forall i ns new, aligned ns -> f i ns = Ok new -> cut_into P ns (map sp_norm new).

(** Pre-tokenised strings obtained from [ns] by any number of such passes,
    interleaved with calls of [tokenize]. *)
Inductive cut_history (P : char -> Prop) (ns : nstring) : pretok -> Prop :=
| cut_start : cut_history P ns (pre_from_norm ns)
| cut_split E (f : nat -> nstring -> res E (list split)) pt pt' :
    cut_history P ns pt -> only_cuts P f -> pt_split f pt = Ok pt' -> cut_history P ns pt'
| cut_tokenize E (f : nstring -> res E (list token)) pt pt' :
    cut_history P ns pt -> pt_tokenize f pt = Ok pt' -> cut_history P ns pt'.

Definition split_texts (pt : pretok) : list str := map (fun sp => n_normalized (sp_norm sp)) (pt_splits pt).

(** [t] is [s] with some characters satisfying [P] left out. *)
Inductive drops (P : char -> Prop) : str -> str -> Prop :=
| drops_nil : drops P [] []
| drops_keep c s t : drops P s t -> drops P (c :: s) (c :: t)
| drops_skip c s t : P c -> drops P s t -> drops P (c :: s) t.

(** The original range a split announces is the place of its original text in [orig]. *)
Definition located (orig : str) (ns : nstring) : Prop :=
  str_get orig (fst (offsets_original ns)) (snd (offsets_original ns)) = Some (n_original ns).

(** Passes that may also rewrite the normalised text: what they return is
    still aligned, and placed inside their input. *)
Definition stays_inside (ns ns' : nstring) : Prop :=
  aligned ns' /\ exists u v, n_original ns = u ++ n_original ns' ++ v /\ n_shift ns' = n_shift ns + blen u.

Inductive inside_history (s : str) : pretok -> Prop :=
| in_start ns : aligned ns -> n_original ns = s -> n_shift ns = 0 -> inside_history s (pre_from_norm ns)
| in_split E (f : nat -> nstring -> res E (list split)) pt pt' :
    inside_history s pt ->
    (forall i ns new sp, aligned ns -> f i ns = Ok new -> In sp new -> n_normalized (sp_norm sp) <> [] ->
       stays_inside ns (sp_norm sp)) ->
    pt_split f pt = Ok pt' -> inside_history s pt'
| in_normalize E (f : nstring -> res E nstring) pt pt' :
    inside_history s pt ->
    (forall ns ns', aligned ns -> f ns = Ok ns' -> aligned ns' /\ same_source ns ns') ->
    pt_normalize f pt = Ok pt' -> inside_history s pt'
| in_tokenize E (f : nstring -> res E (list token)) pt pt' :
    inside_history s pt -> pt_tokenize f pt = Ok pt' -> inside_history s pt'.

(** All the tokens of the splits, with the index of their split, in order. *)
Fixpoint all_tokens (i : nat) (l : list split) : list (nat * nstring * token) :=
  match l with
  | [] => []
  | sp :: l' =>
      map (fun t => (i, sp_norm sp, t)) (match sp_tokens sp with Some ts => ts | None => [] end)
      ++ all_tokens (i + 1) l'
  end.

(** A token of a split covers a non-empty range of its normalised text. *)
Definition token_fits (ns : nstring) (t : token) : Prop :=
  fst (t_offsets t) < snd (t_offsets t) <= n_len ns.

(** The range of the original text [t] stands for: from the start of the
    alignment of its first byte to the end of the alignment of its last byte,
    placed in the whole original text. *)
Definition source_range (ns : nstring) (t : token) (o : offsets_t) : Prop :=
  exists x y, nth_error (n_alignments ns) (fst (t_offsets t)) = Some (fst o - n_shift ns, y) /\
              nth_error (n_alignments ns) (snd (t_offsets t) - 1) = Some (x, snd o - n_shift ns) /\
              n_shift ns <= fst o /\ n_shift ns <= snd o.

(** Number of characters before byte [b] (a boundary). *)
Definition char_pos (s : str) (b i : nat) : Prop :=
  exists p q, s = p ++ q /\ blen p = b /\ length p = i.

Definition number_of_tokens (l : list split) : nat := length (all_tokens 0 l).

(** A row without its word index. *)
Definition no_word (r : row) : row :=
  Row (r_id r) (r_type r) (r_token r) None (r_off r) (r_special r) (r_attention r).
