(** What asynchronous tasks of the Node.js bindings are to give. *)
From Verif Require Import Base NodeTaskModel.

Section spec.
  Context {St Mo Tx Re Ou : Type} (one : St -> Mo -> Tx -> Re) (finish : St -> list Re -> Ou) (mdl : nat -> nat).
  Notation world := (world St Mo Tx Re Ou).
  Notation task := (task Tx Re Ou).
  (** What a batch gives with given settings and a given model, nothing happening meanwhile. *)
  Definition batch (s : St) (m : Mo) (texts : list Tx) : Ou := finish s (map (one s m) texts).
  (** No two tokenizers have the same model object. *)
  Definition unshared : Prop := forall k k', mdl k = mdl k' -> k = k'.
  (** The settings and the model of tokenizer [k] in a state. *)
  Definition settings_in (w : world) (k : nat) : St := w_set w k.
  Definition model_in (w : world) (k : nat) : Mo := w_mod w (mdl k).
  (** In state [w], call number [p] (of tokenizer [k], with these texts) has been made and is
      being computed; has given [o]. *)
  Definition computing (w : world) (p k : nat) (texts : list Tx) : Prop := exists l, nth_error (w_tasks w) p = Some (mkTask k texts (Running l)).
  Definition gave (w : world) (p k : nat) (texts : list Tx) (o : Ou) : Prop := nth_error (w_tasks w) p = Some (mkTask k texts (Done o)).
  (** Promises are awaited after the calls that made them. *)
  Fixpoint awaits_made (n : nat) (prog : list (stmt St Mo Tx)) : Prop :=
    match prog with
    | [] => True
    | PEncode _ _ :: r => awaits_made (S n) r
    | PAwait p :: r => p < n /\ awaits_made n r
    | _ :: r => awaits_made n r
    end.
  (** Statements that only make calls and await promises. *)
  Definition no_change (prog : list (stmt St Mo Tx)) : Prop := Forall (fun c => match c with PEncode _ _ | PAwait _ => True | _ => False end) prog.
  (** The program is over and every promise has been fulfilled. *)
  Definition over (w : world) : Prop := w_prog w = [] /\ w_main w = Free /\ forall p t, nth_error (w_tasks w) p = Some t -> exists o, k_status t = Done o.
End spec.
