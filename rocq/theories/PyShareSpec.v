(** Words of C88. *)
From Verif Require Import Base PyShareModel.

Section words.
  Context {A C X E : Type}.
  Variables (act : nat -> A -> X -> res E X) (call : C -> X -> res E X).

  (** One function after the other, until one fails. *)
  Fixpoint composed (fs : list (X -> res E X)) (x : X) : res E X :=
    match fs with [] => Ok x | f :: fs' => let! y := f x in composed fs' y end.
  (** The parts of an object and of what a tokenizer has: two things share when they have a
      part in common. *)
  Definition obj_parts (w : world A C) (o : nat) : list nat := match nth_error (objs w) o with Some b => cells_of (ob_comp b) | None => [] end.
  Definition tok_parts (w : world A C) (t : nat) : list nat := match nth_error (toks w) t with Some (Some c) => cells_of c | _ => [] end.
  Definition part_use (w : world A C) (a : nat) (x : X) : res E X := apply_cell act call (cells w) a x.
  Definition is_obj (w : world A C) (o : nat) := o < List.length (objs w).
  Definition is_tok (w : world A C) (t : nat) := t < List.length (toks w).
  (** The number of the object that the next call makes. *)
  Definition next_obj (w : world A C) := List.length (objs w).
  Definition next_tok (w : world A C) := List.length (toks w).
  (** The worlds that programs make. *)
  Definition reachable (lone : bool) (w : world A C) : Prop := exists cs, run lone nothing cs = Some w.
  Definition no_assign (t : nat) (cs : list (op A C)) : Prop := forall o, ~ In (OAssign t o) cs.
  Definition no_setitem (cs : list (op A C)) : Prop := forall o i p, ~ In (OSetItem o i p) cs.
  (** The part that a call changes, if any. *)
  Definition changes (w : world A C) (c : op A C) (a : nat) : Prop :=
    match c with
    | OSet o _ => obj_parts w o = [a]
    | OSetItem o i _ => nth_error (obj_parts w o) i = Some a
    | _ => False
    end.
  (** The objects and tokenizers that a call is given. *)
  Definition given_obj (c : op A C) (o : nat) : Prop :=
    match c with
    | OSeq l => In o l
    | OItem p _ | OSet p _ | OCopy p => p = o
    | OSetItem p _ q => p = o \/ q = o
    | OAssign _ (Some p) => p = o
    | _ => False
    end.
  Definition given_tok (c : op A C) (t : nat) : Prop :=
    match c with OAssign u _ | ORead u | OCopyTok u => u = t | _ => False end.
  (** A Python object somewhere inside. *)
  Inductive has_custom : value A C -> Prop :=
  | hc_here c : has_custom (Custom c)
  | hc_in v l : In v l -> has_custom v -> has_custom (Nest l).
End words.
