(** Model of Python threads that share a [Tokenizer]: its [RwLock] and the GIL.
    Source: /repo/bindings/python/src/tokenizer.rs:509-566 and the methods of [PyTokenizer]. *)
From Verif Require Import Base.

Section locks.
  (** What the tokenizer holds, and the results of calls.  [prefer]: the lock gives way to
      waiting writers (as the [RwLock] of the standard library does on Linux). *)
  Context {S R : Type} (prefer : bool).

  (** What a method does while it holds the lock: it looks at the tokenizer, changes it,
      runs Python code (a component or an iterator written in Python; utils/iterators.rs:85,
      normalizers.rs:818, pre_tokenizers.rs:904), lets Python code call a method of the
      same tokenizer, and returns. *)
  Inductive act :=
  | Ret (r : R)
  | Get (k : S -> act)
  | Put (s : S) (k : act)
  | Py (k : act)
  | Again (write : bool) (k : act).

  (** A call.  [c_detach]: the GIL is released first and taken back after the lock is
      released ([encode_batch], tokenizer.rs:1328-1340, [encode_batch_fast], 1449-1461,
      [decode_batch], 1570-1577, [train], 1753-1763, [train_from_iterator], 1820-1831); the others keep
      it while they wait for the lock.  [c_write]: [write] or [write_inner], else [read] or
      [read_inner]. *)
  Record call := mkCall { c_detach : bool; c_write : bool; c_body : act }.

  (** A thread: in Python code, with the calls that remain; waiting for the lock; holding
      it; waiting for the GIL after a call that released it. *)
  Inductive tstate :=
  | Idle (rest : list call)
  | Want (c : call) (rest : list call)
  | Body (c : call) (rest : list call) (a : act)
  | Back (rest : list call).

  Record machine := mkMachine {
    m_state : S; m_gil : option nat; m_readers : nat; m_writer : bool; m_threads : list tstate; m_log : list (nat * call * R) }.

  Fixpoint set_at {A} (l : list A) (i : nat) (x : A) : list A :=
    match l, i with
    | [], _ => []
    | _ :: l', O => x :: l'
    | y :: l', Datatypes.S i' => y :: set_at l' i' x
    end.

  Definition wants_write (x : tstate) : bool := match x with Want c _ => c_write c | _ => false end.
  (** Whether the lock can be taken. *)
  Definition grant (m : machine) (write : bool) : bool :=
    if write then (m_readers m =? 0) && negb (m_writer m)
    else negb (m_writer m) && negb (prefer && existsb wants_write (m_threads m)).

  Definition has_gil (m : machine) (t : nat) : bool := match m_gil m with Some h => h =? t | None => false end.
  Definition gil_free (m : machine) : bool := match m_gil m with Some _ => false | None => true end.

  Definition put (m : machine) (t : nat) (x : tstate) : machine :=
    mkMachine (m_state m) (m_gil m) (m_readers m) (m_writer m) (set_at (m_threads m) t x) (m_log m).
  Definition with_gil (g : option nat) (m : machine) : machine := mkMachine (m_state m) g (m_readers m) (m_writer m) (m_threads m) (m_log m).

  (** The next step of thread [t], if it need not wait. *)
  Definition go (t : nat) (m : machine) : option machine :=
    match nth_error (m_threads m) t with
    | None => None
    | Some (Idle rest) =>
        if has_gil m t then
          match rest with
          | [] => Some (with_gil None m)
          | c :: rest' => Some (put (if c_detach c then with_gil None m else m) t (Want c rest'))
          end
        else if gil_free m && negb (match rest with [] => true | _ => false end) then Some (with_gil (Some t) m)
        else None
    | Some (Want c rest) =>
        if grant m (c_write c) then
          Some (mkMachine (m_state m) (m_gil m) (if c_write c then m_readers m else Datatypes.S (m_readers m)) (c_write c || m_writer m) (set_at (m_threads m) t (Body c rest (c_body c))) (m_log m))
        else None
    | Some (Body c rest a) =>
        match a with
        | Ret r =>
            Some (mkMachine (m_state m) (m_gil m) (if c_write c then m_readers m else pred (m_readers m)) (if c_write c then false else m_writer m)
                    (set_at (m_threads m) t (if c_detach c then Back rest else Idle rest)) (m_log m ++ [(t, c, r)]))
        | Get k => Some (put m t (Body c rest (k (m_state m))))
        | Put s k => Some (mkMachine s (m_gil m) (m_readers m) (m_writer m) (set_at (m_threads m) t (Body c rest k)) (m_log m))
        | Py k =>
            if c_detach c then (if gil_free m then Some (put m t (Body c rest k)) else None)
            else if has_gil m t then Some (put m t (Body c rest k))
            else if gil_free m then Some (with_gil (Some t) m) else None
        | Again write k => if grant m write then Some (put m t (Body c rest k)) else None
        end
    | Some (Back rest) => if gil_free m then Some (put (with_gil (Some t) m) t (Idle rest)) else None
    end.

  (** Python passes the GIL on while Python code runs. *)
  Definition yield (t : nat) (m : machine) : option machine :=
    if has_gil m t then
      match nth_error (m_threads m) t with
      | Some (Idle (_ :: _)) => Some (with_gil None m)
      | Some (Body c _ (Py _)) => if c_detach c then None else Some (with_gil None m)
      | _ => None
      end
    else None.

  Definition start (s : S) (programs : list (list call)) : machine := mkMachine s None 0 false (map Idle programs) [].
End locks.
Arguments act : clear implicits.
Arguments call : clear implicits.
Arguments tstate : clear implicits.
Arguments machine : clear implicits.
