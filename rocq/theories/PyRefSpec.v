(** Which threads are using a lent object, and which programs use references one at a
    time. *)
From Verif Require Import Base PyRefModel.

(** All interleavings of the threads. *)
Inductive reach (programs : list (list op)) : machine -> Prop :=
| reach_start : reach programs (start programs)
| reach_step t m m' : reach programs m -> tstep t m = Some m' -> reach programs m'.
Inductive later : machine -> machine -> Prop :=
| later_refl m : later m m
| later_step t m m' m'' : tstep t m = Some m' -> later m' m'' -> later m m''.

(** The same under the GIL. *)
Inductive gil_path : machine * nat -> machine * nat -> Prop :=
| gil_refl x : gil_path x x
| gil_next x y z : gil_step x y -> gil_path y z -> gil_path x z.

(** Thread [t] is inside a method of reference [r], between taking the pointer and giving
    it back. *)
Definition uses (m : machine) (t r : nat) : Prop :=
  exists x a strict, nth_error (m_threads m) t = Some x /\ In (IRelease r a strict) (t_stack x).
(** The object of [r] is lent. *)
Definition lent (m : machine) (r : nat) : Prop := exists c, nth_error (m_cells m) r = Some c /\ c_valid c = true.
(** It was lent, and is not any more. *)
Definition over (m : machine) (r : nat) : Prop := exists c, nth_error (m_cells m) r = Some c /\ c_valid c = false.

(** Thread [t] is about to call a method of [r], or about to take its mutex. *)
Definition calls (m : machine) (t r : nat) : Prop :=
  exists s a strict body, nth_error (m_threads m) t = Some (mkThread MNormal (IOp (Call r a strict body) :: s)) \/
                          nth_error (m_threads m) t = Some (mkThread MNormal (ILock r a strict body :: s)).
Definition raising (m : machine) (t : nat) : Prop := exists x, nth_error (m_threads m) t = Some x /\ t_mode x <> MNormal.

(** Inside the callback of a [&self] method of a reference (only [for_each] has one), its
    [&self] methods are not called. *)
Fixpoint no_shared (r : nat) (o : op) : bool :=
  match o with
  | Skip | Fail => true
  | Try body | Lend body => forallb (no_shared r) body
  | Call r' a _ body => negb ((r' =? r) && match a with Shared => true | Exclusive => false end) && forallb (no_shared r) body
  end.
Fixpoint polite (o : op) : bool :=
  match o with
  | Skip | Fail => true
  | Try body | Lend body => forallb polite body
  | Call r a _ body => match a with Shared => forallb (no_shared r) body | Exclusive => true end && forallb polite body
  end.

(** The callbacks of [filter], [for_each] and [map] do not use references and do not raise. *)
Definition is_skip (o : op) : bool := match o with Skip => true | _ => false end.
Fixpoint gentle (o : op) : bool :=
  match o with
  | Skip | Fail => true
  | Try body | Lend body => forallb gentle body
  | Call _ _ strict body => (negb strict || forallb is_skip body) && forallb gentle body
  end.

Definition ended (m : machine) : Prop := Forall (fun x => t_stack x = []) (m_threads m).
