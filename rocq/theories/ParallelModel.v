(** Model of the settings of parallelism.
    Source: /repo/tokenizers/src/utils/parallelism.rs and [child_after_fork] in
    /repo/bindings/python/src/lib.rs.  What an iterator computes is not modelled
    here: only whether it runs in parallel, and the two process-wide variables.
    All loads and stores are [SeqCst]: a run of several threads is a sequence of
    their steps in some order. *)
From Verif Require Import Base.

(** [std::env::var(ENV_VARIABLE)]: an error if the variable is absent or is not Unicode. *)
Inductive env_value := EAbsent | ENotUnicode | EText (s : str).

(** [PARALLELISM] (0: not set, 1: off, 2: on), [USED_PARALLELISM], parallelism.rs:17-18,
    and the variable of the environment. *)
Record process := mkProcess { p_flag : N; p_used : bool; p_env : env_value }.

(** [make_ascii_lowercase] on a character. *)
Definition ascii_lower (c : char) : char := if (N.leb 65 c && N.leb c 90)%bool then (c + 32)%N else c.

(** parallelism.rs:46: "", "off", "false", "f", "no", "n", "0". *)
Definition off_words : list str :=
  [[]; [111; 102; 102]; [102; 97; 108; 115; 101]; [102]; [110; 111]; [110]; [48]]%N.

(** [get_env_parallelism], parallelism.rs:41-50. *)
Definition env_parallelism (v : env_value) : bool :=
  match v with
  | EText s => negb (existsb (str_eqb (map ascii_lower s)) off_words)
  | _ => true
  end.

(** [get_override_parallelism], parallelism.rs:31-38. *)
Definition override (flag : N) : res unit (option bool) :=
  match flag with
  | 0%N => Ok None
  | 1%N => Ok (Some false)
  | 2%N => Ok (Some true)
  | _ => Panic
  end.

(** [is_parallelism_configured], parallelism.rs:21-23. *)
Definition configured (p : process) : res unit bool :=
  match p_env p with
  | EText _ => Ok true
  | _ => let! o := override (p_flag p) in Ok (match o with Some _ => true | None => false end)
  end.

(** [get_parallelism], parallelism.rs:52-58, without other threads. *)
Definition get_parallelism (p : process) : res unit bool :=
  let! o := override (p_flag p) in
  Ok (match o with Some b => b | None => env_parallelism (p_env p) end).

(** [set_parallelism], parallelism.rs:61-63. *)
Definition set_parallelism (b : bool) (p : process) : process :=
  mkProcess (if b then 2 else 1)%N (p_used p) (p_env p).

(** The iterators: [into_maybe_par_iter] and those defined with it
    (parallelism.rs:85-161), [maybe_par_bridge] (173-199), [maybe_par_chunks] (223-251). *)
Inductive iter_kind := IVec | IBridge | IChunks.

(** What a thread does: [set_parallelism], changing the environment, running an
    iterator with a condition ([..._cond]; [true] without one). *)
Inductive command := SetTo (b : bool) | EnvTo (v : env_value) | Iterate (k : iter_kind) (cond : bool).

(** Where a thread is inside of an iterator: before, about to read the
    environment (the flag was 0), after [get_parallelism], about to run. *)
Inductive phase := Outside | ReadEnv (k : iter_kind) | Chosen (k : iter_kind) (par : bool) | Ready (k : iter_kind) (par : bool).
Record thread := mkThread { th_todo : list command; th_phase : phase }.

Inductive event := Started (k : iter_kind) (par : bool).

(** One step of a thread: it loads or stores one shared variable, or starts to run. *)
Definition step (p : process) (t : thread) : res unit (process * thread * list event) :=
  match th_phase t with
  | Outside =>
      match th_todo t with
      | [] => Ok (p, t, [])
      | SetTo b :: rest => Ok (set_parallelism b p, mkThread rest Outside, [])
      | EnvTo v :: rest => Ok (mkProcess (p_flag p) (p_used p) v, mkThread rest Outside, [])
      | Iterate k false :: rest => Ok (p, mkThread rest (Ready k false), [])
      | Iterate k true :: rest =>
          let! o := override (p_flag p) in
          Ok (p, mkThread rest (match o with Some b => Chosen k b | None => ReadEnv k end), [])
      end
  | ReadEnv k => Ok (p, mkThread (th_todo t) (Chosen k (env_parallelism (p_env p))), [])
  | Chosen k false => Ok (p, mkThread (th_todo t) (Ready k false), [])
  | Chosen k true =>
      match k with
      | IVec | IBridge => Ok (mkProcess (p_flag p) true (p_env p), mkThread (th_todo t) (Ready k true), [])
      | IChunks => Ok (p, mkThread (th_todo t) (Ready k true), [])
      end
  | Ready k par => Ok (p, mkThread (th_todo t) Outside, [Started k par])
  end.

Fixpoint set_nth {A} (i : nat) (x : A) (l : list A) : list A :=
  match i, l with
  | _, [] => []
  | O, _ :: l' => x :: l'
  | S j, y :: l' => y :: set_nth j x l'
  end.

(** Some threads, of which the one in the schedule makes the next step. *)
Fixpoint run (p : process) (ts : list thread) (schedule : list nat) : res unit (process * list thread * list event) :=
  match schedule with
  | [] => Ok (p, ts, [])
  | i :: rest =>
      match nth_error ts i with
      | None => run p ts rest
      | Some t =>
          let! (p', t', ev) := step p t in
          let! (p2, ts2, ev2) := run p' (set_nth i t' ts) rest in
          Ok (p2, ts2, ev ++ ev2)
      end
  end.

(** [child_after_fork], bindings/python/src/lib.rs:42-47: the child has one thread
    and a copy of the variables. *)
Definition child_after_fork (p : process) : res unit process :=
  if p_used p then
    let! c := configured p in
    Ok (if c then p else set_parallelism false p)
  else Ok p.
