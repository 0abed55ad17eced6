(** Model of training from a Python iterator.
    Source: /repo/bindings/python/src/utils/iterators.rs and [train_from_iterator] of
    /repo/bindings/python/src/tokenizer.rs.  The length hint of [MaybeSizedIterator]
    (iterators.rs:4-34) only goes to the progress bar and is left out; the lock of the
    tokenizer and the GIL are the subject of PyLockModel. *)
From Verif Require Import Base StrBytes Utf8 EncodingModel PreTokModel AddedModel BpeTrainModel TokenizerModel TokenizerTrainModel PyInputModel.

(** What one call of [__next__] does: give an object, or raise.  An iterator is the list
    of what its calls do; afterwards they raise [StopIteration].  An iterator that never
    ends is left out. *)
Inductive py_event (A : Type) := Yields (a : A) | Raises.
Arguments Yields {A} a.
Arguments Raises {A}.

(** An element given by the iterator: a [str], something that can be iterated over, or
    anything else. *)
Inductive py_element :=
| ElStr (s : list N)
| ElIter (l : list (py_event pyobj))
| ElOther.

(** Exceptions: one raised by an iterator, or one of the conversion to text. *)
Inductive iter_error := IRaised | IBad (e : py_error).
Definition item := res iter_error str.
Definition as_item (r : res py_error str) : item :=
  match r with Ok s => Ok s | Err e => Err (IBad e) | Panic => Panic end.

(** The converter of [train_from_iterator], tokenizer.rs:1800-1818. *)
Definition convert (el : py_element) : list item :=
  match el with
  | ElStr s => [as_item (py_string (PyStr s))]
  | ElIter l => map (fun ev => match ev with Yields o => as_item (py_string o) | Raises => Err IRaised end) l
  | ElOther => [Err (IBad EType)]
  end.

(** [PyBufferedIterator], iterators.rs:44-49; [None]: the iterator is used up. *)
Record buffered := mkBuffered { bi_iter : option (list (py_event py_element)); bi_buffer : list item }.
Definition bi_new (events : list (py_event py_element)) : buffered := mkBuffered (Some events) [].

(** The loop of [refill], iterators.rs:85-109; the second component: the iterator raised. *)
Fixpoint refill_loop (size : nat) (events : list (py_event py_element)) (buffer : list item) : buffered * bool :=
  if size <=? length buffer then (mkBuffered (Some events) buffer, false)
  else
    match events with
    | [] => (mkBuffered None buffer, false)
    | Yields el :: events' => refill_loop size events' (buffer ++ convert el)
    | Raises :: events' => (mkBuffered (Some events') buffer, true)
    end.

(** [next], iterators.rs:120-131.  [Panic]: the recursion does not end. *)
Definition bi_next (size : nat) (b : buffered) : res unit (option item * buffered) :=
  match bi_buffer b with
  | x :: rest => Ok (Some x, mkBuffered (bi_iter b) rest)
  | [] =>
      match bi_iter b with
      | None => Ok (None, b)
      | Some events =>
          let (b', raised) := refill_loop size events [] in
          if raised then Ok (Some (Err IRaised), b')
          else
            match bi_buffer b', bi_iter b' with
            | x :: rest, _ => Ok (Some x, mkBuffered (bi_iter b') rest)
            | [], None => Ok (None, b')
            | [], Some _ => Panic
            end
      end
  end.

(** [ResultShunt] over it, /repo/tokenizers/src/utils/iter.rs:50-59, until it ends: the
    texts it gives, and the error that ended it.  [Panic] also stands for fuel. *)
Fixpoint pull (fuel size : nat) (b : buffered) : res unit (list str * option iter_error) :=
  match fuel with
  | O => Panic
  | S fuel' =>
      let! r := bi_next size b in
      match fst r with
      | None => Ok ([], None)
      | Some (Err e) => Ok ([], Some e)
      | Some Panic => Panic
      | Some (Ok s) => let! ls := pull fuel' size (snd r) in Ok (s :: fst ls, snd ls)
      end
  end.

(** No more calls of [next] than items, and one more. *)
Definition items_of (events : list (py_event py_element)) : list item :=
  flat_map (fun ev => match ev with Yields el => convert el | Raises => [Err IRaised] end) events.
Definition pull_all (size : nat) (events : list (py_event py_element)) : res unit (list str * option iter_error) :=
  pull (S (length (items_of events))) size (bi_new events).

Section training.
  Context {M : Type} (vocab_of : M -> model_vocab) (answer : M -> str -> res unit (list token)).
  Context (accepts : list (str * N) -> bool) (norm : option (str -> option str)).

  (** [train_from_iterator], tokenizer.rs:1784-1831, with a trainer.  The error of the
      iterator wins over the one of the training. *)
  Definition py_train (share : list str -> reduction str) (tr : model_trainer M) (events : list (py_event py_element)) (x : trainee M)
    : outcome M * option iter_error :=
    match pull_all 256 events with
    | Ok (texts, e) =>
        match train vocab_of answer accepts norm tr (share texts) x, e with
        | Panicked, _ => (Panicked, None)
        | Trained y, Some _ => (Failed EReading y, e)
        | Failed _ y, Some _ => (Failed EReading y, e)
        | r, None => (r, None)
        end
    | _ => (Panicked, None)
    end.
End training.
