(** Model of the references that the Python bindings lend to Python code while a
    normalizer or pre-tokenizer written in Python runs.
    Source: /repo/bindings/python/src/utils/mod.rs ([RefMutContainer], [RefMutGuard]),
    used in utils/normalization.rs:391-604, utils/pretokenization.rs:33-47 and 267-335,
    normalizers.rs:816-825 and pre_tokenizers.rs:902-911. *)
From Verif Require Import Base.

(** Change the element at an index. *)
Fixpoint alter {A} (l : list A) (i : nat) (f : A -> A) : list A :=
  match l, i with
  | [], _ => []
  | x :: l', O => f x :: l'
  | x :: l', S i' => x :: alter l' i' f
  end.

(** [&self] and [&mut self] methods; PyO3 checks these borrows when a method is called. *)
Inductive access := Shared | Exclusive.

(** What Python code does, as far as the references are concerned.  References are
    numbered in the order in which they are created, and any thread may know any of
    them.
    - [Lend body]: an object is lent to Python code, which does [body]
      ([PyNormalizedStringRefMut::new], [PyPreTokenizedStringRefMut::new] and the call after it);
    - [Call r a strict body]: a method of reference [r] that calls back Python code, which does
      [body] ([[]] if it does not call back); [strict]: an exception of the callback is
      a panic ([expect] in [filter], [for_each], [map], utils/normalization.rs:125-172), else it
      is returned ([split], [normalize], [tokenize], utils/pretokenization.rs:15-67);
    - [Try body]: exceptions of [body] are caught. *)
Inductive op :=
| Skip
| Fail
| Try (body : list op)
| Lend (body : list op)
| Call (r : nat) (a : access) (strict : bool) (body : list op).

(** A reference: who holds the mutex, whether the pointer is there, whether the mutex is
    poisoned (utils/mod.rs:44-48), and the borrows of the Python object.  [c_valid]: the
    object that the pointer points to is still lent. *)
Record cell := mkCell {
  c_owner : option nat; c_ptr : bool; c_poisoned : bool; c_shared : nat; c_excl : bool; c_valid : bool }.
Definition new_cell : cell := mkCell None true false 0 false true.

(** What a thread has to do, innermost first: an operation of Python code; the end of a
    [Try]; [map] or [map_mut] from the lock on (utils/mod.rs:55-65); the end of [map] or
    [map_mut]; the drop of the guard (utils/mod.rs:38-42). *)
Inductive instr :=
| IOp (o : op)
| ICatch
| ILock (r : nat) (a : access) (strict : bool) (body : list op)
| IRelease (r : nat) (a : access) (strict : bool)
| IDrop (r : nat).

(** Going on, raising an exception, or panicking (an exception of type [PanicException]
    in Python code; PyO3 turns it into a panic again when Rust code gets it). *)
Inductive mode := MNormal | MRaise | MPanic.

Definition can_borrow (a : access) (c : cell) : bool :=
  match a with Shared => negb (c_excl c) | Exclusive => negb (c_excl c) && (c_shared c =? 0) end.
Definition borrow (a : access) (c : cell) : cell :=
  match a with
  | Shared => mkCell (c_owner c) (c_ptr c) (c_poisoned c) (S (c_shared c)) (c_excl c) (c_valid c)
  | Exclusive => mkCell (c_owner c) (c_ptr c) (c_poisoned c) (c_shared c) true (c_valid c)
  end.
Definition give_back (a : access) (c : cell) : cell :=
  match a with
  | Shared => mkCell (c_owner c) (c_ptr c) (c_poisoned c) (pred (c_shared c)) (c_excl c) (c_valid c)
  | Exclusive => mkCell (c_owner c) (c_ptr c) (c_poisoned c) (c_shared c) false (c_valid c)
  end.
Definition set_owner (o : option nat) (c : cell) : cell := mkCell o (c_ptr c) (c_poisoned c) (c_shared c) (c_excl c) (c_valid c).
Definition poison (b : bool) (c : cell) : cell := mkCell (c_owner c) (c_ptr c) (c_poisoned c || b) (c_shared c) (c_excl c) (c_valid c).
(** [destroy], utils/mod.rs:68-72, and the end of the loan; with a poisoned mutex the pointer
    stays. *)
Definition end_loan (c : cell) : cell := mkCell (c_owner c) (c_poisoned c && c_ptr c) (c_poisoned c) (c_shared c) (c_excl c) false.

Definition is_panic (md : mode) : bool := match md with MPanic => true | _ => false end.
(** The mode after a callback, utils/normalization.rs:131-136, utils/pretokenization.rs:22-28. *)
Definition after_callback (strict : bool) (md : mode) : mode :=
  match md with MRaise => if strict then MPanic else MRaise | _ => md end.

(** One instruction of thread [t].  [None]: it waits for a mutex.  The last component: the
    process is aborted (a panic while a panic unwinds). *)
Definition istep (t : nat) (cells : list cell) (md : mode) (i : instr) (s : list instr) : option (list cell * mode * list instr * bool) :=
  match i with
  | IOp o =>
      match md with
      | MNormal =>
          match o with
          | Skip => Some (cells, MNormal, s, false)
          | Fail => Some (cells, MRaise, s, false)
          | Try body => Some (cells, MNormal, map IOp body ++ ICatch :: s, false)
          | Lend body => Some (cells ++ [new_cell], MNormal, map IOp body ++ IDrop (length cells) :: s, false)
          | Call r a strict body =>
              match nth_error cells r with
              | None => Some (cells, MRaise, s, false)
              | Some c =>
                  if can_borrow a c then Some (alter cells r (borrow a), MNormal, ILock r a strict body :: s, false)
                  else Some (cells, MRaise, s, false)
              end
          end
      | _ => Some (cells, md, s, false)
      end
  | ICatch => Some (cells, MNormal, s, false)
  | ILock r a strict body =>
      match nth_error cells r with
      | None => Some (cells, MRaise, s, false)
      | Some c =>
          match c_owner c with
          | Some _ => None
          | None =>
              if c_poisoned c then Some (alter cells r (give_back a), MPanic, s, false)
              else if c_ptr c then Some (alter cells r (set_owner (Some t)), MNormal, map IOp body ++ IRelease r a strict :: s, false)
              else Some (alter cells r (give_back a), MRaise, s, false)
          end
      end
  | IRelease r a strict =>
      let md' := after_callback strict md in
      Some (alter cells r (fun c => set_owner None (poison (is_panic md') (give_back a c))), md', s, false)
  | IDrop r =>
      match nth_error cells r with
      | None => Some (cells, md, s, false)
      | Some c =>
          match c_owner c with
          | Some _ => None
          | None =>
              if c_poisoned c then Some (alter cells r end_loan, MPanic, s, is_panic md)
              else Some (alter cells r end_loan, md, s, false)
          end
      end
  end.

(** The threads of the process. *)
Record thread := mkThread { t_mode : mode; t_stack : list instr }.
Record machine := mkMachine { m_cells : list cell; m_threads : list thread; m_aborted : bool }.
Definition start (programs : list (list op)) : machine := mkMachine [] (map (fun p => mkThread MNormal (map IOp p)) programs) false.

(** A step of thread [t]. *)
Definition tstep (t : nat) (m : machine) : option machine :=
  if m_aborted m then None
  else
    match nth_error (m_threads m) t with
    | Some (mkThread md (i :: s)) =>
        match istep t (m_cells m) md i s with
        | Some (cells, md', s', ab) => Some (mkMachine cells (alter (m_threads m) t (fun _ => mkThread md' s')) ab)
        | None => None
        end
    | _ => None
    end.

(** The GIL: only its holder runs, and it can pass to another thread only while the
    holder runs Python code, or has ended; waiting for a mutex of Rust keeps it. *)
Definition in_python (x : thread) : bool :=
  match t_stack x with
  | [] | IOp _ :: _ | ICatch :: _ => true
  | _ => false
  end.
Inductive gil_step : machine * nat -> machine * nat -> Prop :=
| gil_run m m' h : tstep h m = Some m' -> gil_step (m, h) (m', h)
| gil_switch m h h' x : nth_error (m_threads m) h = Some x -> in_python x = true -> h' < length (m_threads m) -> h' <> h -> m_aborted m = false ->
    gil_step (m, h) (m, h').
