(** What a user expects of encodings as Python objects. *)
From Coq Require Import ZArith String Permutation.
From Verif Require Import Base StrBytes AMap EncodingModel EncodingSpec ModelFilesModel PyModelModel PyModelSpec PyEncModel.

(** The meanings of the arguments. *)
Definition is_u32 {W} (a : arg W) (n : N) : Prop := is_number a n /\ (n < 2 ^ 32)%N.
Definition is_position {W} (a : arg W) (n : nat) : Prop := is_number a (N.of_nat n).
Definition is_side {W} (a : arg W) (d : direction) : Prop :=
  (a = AStr (key "left") /\ d = DLeft) \/ (a = AStr (key "right") /\ d = DRight).
(** An argument that may be left out. *)
Definition default_or {W T} (means : arg W -> T -> Prop) (default : T) (a : option (arg W)) (v : T) : Prop :=
  match a with Some x => means x v | None => v = default end.

(** The numbers of an encoding fit their machine types ([u32] and [usize]). *)
Inductive fits (e : encoding) : Prop :=
| fits_intro :
    Forall (fun n => n < 2 ^ 32)%N (ids e) -> Forall (fun n => n < 2 ^ 32)%N (type_ids e) ->
    Forall (fun w => forall n, w = Some n -> n < 2 ^ 32)%N (words e) ->
    Forall (fun o => N.of_nat (fst o) < 2 ^ 64 /\ N.of_nat (snd o) < 2 ^ 64)%N (offsets e) ->
    Forall (fun n => n < 2 ^ 32)%N (special_tokens_mask e) -> Forall (fun n => n < 2 ^ 32)%N (attention_mask e) ->
    Forall (fun kr => N.of_nat (fst kr) < 2 ^ 64 /\ N.of_nat (fst (snd kr)) < 2 ^ 64 /\ N.of_nat (snd (snd kr)) < 2 ^ 64)%N (sequence_ranges e) ->
    Forall fits (overflowing e) -> fits e.

(** One range for each sequence, as in any map. *)
Inductive one_range (e : encoding) : Prop :=
| one_range_intro : NoDup (map fst (sequence_ranges e)) -> Forall one_range (overflowing e) -> one_range e.

(** How deep the overflowing encodings are nested. *)
Fixpoint nesting (e : encoding) : nat := list_max (map (fun o => S (nesting o)) (overflowing e)).

(** The same encoding: a map of ranges has no order. *)
Inductive same_enc (e e' : encoding) : Prop :=
| same_intro :
    ids e' = ids e -> type_ids e' = type_ids e -> tokens e' = tokens e -> words e' = words e -> offsets e' = offsets e ->
    special_tokens_mask e' = special_tokens_mask e -> attention_mask e' = attention_mask e ->
    Permutation (sequence_ranges e') (sequence_ranges e) ->
    Forall2 same_enc (overflowing e) (overflowing e') -> same_enc e e'.

(** The object that a call changes, if any. *)
Definition changes {W} (c : @enc_call W) : option nat :=
  match c with
  | CSequence i _ | CPad i _ _ | CTruncate i _ _ _ | CSetState i _ => Some i
  | _ => None
  end.
(** The states given to [__setstate__] are pickles of encodings with parallel arrays. *)
Definition honest {W} (c : @enc_call W) : Prop :=
  match c with CSetState _ j => exists e, parallel e /\ enc_get_state e = Ok j | _ => True end.
