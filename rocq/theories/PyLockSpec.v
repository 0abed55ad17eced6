(** Calls one after the other, and schedules of calls. *)
From Verif Require Import Base PyLockModel.

Section locks.
  Context {S R : Type}.

  (** A call alone: the tokenizer afterwards and the result. *)
  Fixpoint alone (s : S) (a : act S R) : S * R :=
    match a with
    | Ret r => (s, r)
    | Get k => alone s (k s)
    | Put s' k => alone s' k
    | Py k | Again _ k => alone s k
    end.
  (** Calls one after the other: the results are those in the log, and the tokenizer
      ends as [s']. *)
  Inductive in_turn : S -> list (nat * call S R * R) -> S -> Prop :=
  | turn_nil s : in_turn s [] s
  | turn_cons s t c r s1 log s2 : alone s (c_body c) = (s1, r) -> in_turn s1 log s2 -> in_turn s ((t, c, r) :: log) s2.

  (** The calls of thread [t] in a log. *)
  Definition calls_of (t : nat) (log : list (nat * call S R * R)) : list (call S R) :=
    map (fun e => snd (fst e)) (filter (fun e => fst (fst e) =? t) log).

  (** Calls that only read do not change the tokenizer. *)
  Inductive only_reads : act S R -> Prop :=
  | or_ret r : only_reads (Ret r)
  | or_get k : (forall s, only_reads (k s)) -> only_reads (Get k)
  | or_py k : only_reads k -> only_reads (Py k)
  | or_again w k : only_reads k -> only_reads (Again w k).
  Definition honest (c : call S R) : Prop := c_write c = false -> only_reads (c_body c).

  (** No Python code runs while the lock is held; none of it calls the tokenizer. *)
  Inductive no_python : act S R -> Prop :=
  | np_ret r : no_python (Ret r)
  | np_get k : (forall s, no_python (k s)) -> no_python (Get k)
  | np_put s k : no_python k -> no_python (Put s k).
  Inductive not_again : act S R -> Prop :=
  | na_ret r : not_again (Ret r)
  | na_get k : (forall s, not_again (k s)) -> not_again (Get k)
  | na_put s k : not_again k -> not_again (Put s k)
  | na_py k : not_again k -> not_again (Py k).

  Inductive step (prefer : bool) : machine S R -> machine S R -> Prop :=
  | step_go t m m' : go prefer t m = Some m' -> step prefer m m'
  | step_yield t m m' : yield t m = Some m' -> step prefer m m'.
  Inductive path (prefer : bool) : machine S R -> machine S R -> Prop :=
  | path_nil m : path prefer m m
  | path_cons m m' m'' : step prefer m m' -> path prefer m' m'' -> path prefer m m''.
  Definition reach (prefer : bool) (s : S) (programs : list (list (call S R))) (m : machine S R) : Prop := path prefer (start s programs) m.

  (** The calls that a thread has still to finish. *)
  Definition pending (x : tstate S R) : list (call S R) :=
    match x with Idle rest | Back rest => rest | Want c rest | Body c rest _ => c :: rest end.
  Definition changing (x : tstate S R) : Prop := match x with Body c _ _ => c_write c = true | _ => False end.
  (** Either no call runs Python code, or all only read, or all release the GIL; and Python
      code that runs during a call does not call the tokenizer. *)
  Definition every (P : call S R -> Prop) (programs : list (list (call S R))) : Prop := Forall (Forall P) programs.
  Definition peaceful (programs : list (list (call S R))) : Prop :=
    every (fun c => no_python (c_body c)) programs \/
    every (fun c => c_write c = false /\ not_again (c_body c)) programs \/
    every (fun c => c_detach c = true /\ not_again (c_body c)) programs.
  Definition finished (m : machine S R) : Prop := Forall (fun x => x = Idle []) (m_threads m).
  (** Nobody can go on, although calls remain. *)
  Definition stuck (prefer : bool) (m : machine S R) : Prop := ~ finished m /\ forall m', ~ step prefer m m'.
End locks.
