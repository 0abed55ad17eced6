(** Model of the asynchronous tasks of the Node.js bindings.
    Source: /repo/bindings/node/src/tokenizer.rs:289-326 (encode, encode_batch), 195-257 and
    388-434 (setters), 480-500 (train); tasks/tokenizer.rs:14-101; models.rs:83-112 (the lock on
    the model); trainers.rs:33-53; /repo/tokenizers/src/tokenizer/mod.rs:1337-1402 (encode_batch on
    rayon), models/bpe/trainer.rs (training on rayon).

    The JavaScript thread runs a program; [encode] and [encodeBatch] make tasks, which threads of
    the pool of libuv compute while they hold the read lock of the tokenizer.  The texts of a
    batch are spread over the workers of rayon; a worker holds the read lock of the model while it
    tokenizes a text.  Setters take the write lock of the tokenizer; [train] takes that of the
    tokenizer and then, in the trainer, that of the model, and it needs a worker of rayon for its
    parallel loops.  Simplifications: a text is tokenized in one step, at the end of the time in which the lock
    of the model is held; [encode] is a batch of one text; the loops that feed the trainer
    before the lock of the model is taken need no worker; no errors; [setModel] is left out. *)
From Verif Require Import Base.

Fixpoint put_nth {A} (l : list A) (i : nat) (a : A) : list A :=
  match l, i with
  | [], _ => []
  | _ :: r, 0 => a :: r
  | x :: r, S i' => x :: put_nth r i' a
  end.
Definition fun_set {A} (f : nat -> A) (k : nat) (a : A) : nat -> A := fun x => if x =? k then a else f x.

Section tasks.
  (** Settings of a tokenizer (everything but its model), models, texts, encodings of texts, and
      results of batches; what a text gives, and what is made of a batch (padding). *)
  Context {St Mo Tx Re Ou : Type} (one : St -> Mo -> Tx -> Re) (finish : St -> list Re -> Ou).
  (** The model object of each tokenizer; the numbers of threads of libuv and of workers of
      rayon; whether a waiting writer keeps new readers out. *)
  Context (mdl : nat -> nat) (threads workers : nat) (pref : bool).

  (** A text of a running batch: not begun; a worker waits for the model, or has it; done. *)
  Inductive slot := Todo | Waits | Inside | Filled (r : Re).
  (** A task: in the queue; on a thread, waiting for the tokenizer; with the tokenizer; over. *)
  Inductive status := Queued | Taken | Running (l : list slot) | Done (o : Ou).
  Record task := mkTask { k_tok : nat; k_texts : list Tx; k_status : status }.
  (** Statements of the program. *)
  Inductive stmt := PEncode (k : nat) (texts : list Tx) | PSet (k : nat) (f : St -> St) | PTrain (k : nat) (f : St -> Mo -> St * Mo) | PAwait (p : nat).
  (** The JavaScript thread holds no lock; the write lock of the tokenizer; that and the one of
      its model. *)
  Inductive main_state := Free | Writing (k : nat) (f : St -> Mo -> St * Mo) | Training (k : nat) (f : St -> Mo -> St * Mo).
  Record world := mkWorld { w_set : nat -> St; w_mod : nat -> Mo; w_tasks : list task; w_prog : list stmt; w_main : main_state }.

  Definition is_running (t : task) : bool := match k_status t with Running _ => true | _ => false end.
  Definition is_inside (s : slot) : bool := match s with Inside => true | _ => false end.
  Definition is_busy (s : slot) : bool := match s with Waits | Inside => true | _ => false end.
  Definition slots (t : task) : list slot := match k_status t with Running l => l | _ => [] end.
  (** Somebody holds the read lock of tokenizer [k], of model [m]. *)
  Definition reading (k : nat) (w : world) : bool := existsb (fun t => (k_tok t =? k) && is_running t) (w_tasks w).
  Definition inside (m : nat) (w : world) : bool := existsb (fun t => (mdl (k_tok t) =? m) && existsb is_inside (slots t)) (w_tasks w).
  Definition busy (w : world) : nat := list_sum (map (fun t => length (filter is_busy (slots t))) (w_tasks w)).
  Definition on_thread (t : task) : bool := match k_status t with Taken | Running _ => true | _ => false end.
  Definition occupied (w : world) : nat := length (filter on_thread (w_tasks w)).
  (** The JavaScript thread holds the write lock of the tokenizer, of the model; waits for it. *)
  Definition held (k : nat) (w : world) : bool := match w_main w with Free => false | Writing k' _ | Training k' _ => k' =? k end.
  Definition held_model (m : nat) (w : world) : bool := match w_main w with Training k _ => mdl k =? m | _ => false end.
  Definition wanted (k : nat) (w : world) : bool :=
    match w_main w, w_prog w with Free, (PSet k' _ | PTrain k' _) :: _ => (k' =? k) && reading k w | _, _ => false end.
  Definition wanted_model (m : nat) (w : world) : bool := match w_main w with Writing k _ => (mdl k =? m) && inside m w | _ => false end.

  Definition set_task (w : world) (p : nat) (t : task) (st : status) : world :=
    mkWorld (w_set w) (w_mod w) (put_nth (w_tasks w) p (mkTask (k_tok t) (k_texts t) st)) (w_prog w) (w_main w).
  Definition all_filled (l : list slot) : option (list Re) :=
    fold_right (fun s acc => match s, acc with Filled r, Some rs => Some (r :: rs) | _, _ => None end) (Some []) l.

  (** What happens next: the JavaScript thread goes on; a thread takes task [p] from the queue,
      gets the tokenizer; a worker picks text [i], gets the model, is done with the text; the
      task is over. *)
  Inductive label := LMain | LTake (p : nat) | LStart (p : nat) | LPick (p i : nat) | LEnter (p i : nat) | LLeave (p i : nat) | LFinish (p : nat).

  Definition step_main (w : world) : option world :=
    match w_main w with
    | Free =>
        match w_prog w with
        | [] => None
        | PEncode k xs :: r => Some (mkWorld (w_set w) (w_mod w) (w_tasks w ++ [mkTask k xs Queued]) r Free)
        | PSet k f :: r => if reading k w then None else Some (mkWorld (fun_set (w_set w) k (f (w_set w k))) (w_mod w) (w_tasks w) r Free)
        | PTrain k f :: r => if reading k w then None else Some (mkWorld (w_set w) (w_mod w) (w_tasks w) r (Writing k f))
        | PAwait p :: r =>
            match nth_error (w_tasks w) p with
            | Some t => match k_status t with Done _ => Some (mkWorld (w_set w) (w_mod w) (w_tasks w) r Free) | _ => None end
            | None => None
            end
        end
    | Writing k f => if inside (mdl k) w then None else Some (mkWorld (w_set w) (w_mod w) (w_tasks w) (w_prog w) (Training k f))
    | Training k f =>
        if busy w <? workers then
          let sm := f (w_set w k) (w_mod w (mdl k)) in
          Some (mkWorld (fun_set (w_set w) k (fst sm)) (fun_set (w_mod w) (mdl k) (snd sm)) (w_tasks w) (w_prog w) Free)
        else None
    end.
  Definition step_slot (w : world) (p i : nat) (next : task -> slot -> option slot) : option world :=
    match nth_error (w_tasks w) p with
    | Some t =>
        match k_status t with
        | Running l =>
            match nth_error l i with
            | Some s => match next t s with Some s' => Some (set_task w p t (Running (put_nth l i s'))) | None => None end
            | None => None
            end
        | _ => None
        end
    | None => None
    end.
  Definition step (a : label) (w : world) : option world :=
    match a with
    | LMain => step_main w
    | LTake p =>
        match nth_error (w_tasks w) p with
        | Some t => match k_status t with Queued => if occupied w <? threads then Some (set_task w p t Taken) else None | _ => None end
        | None => None
        end
    | LStart p =>
        match nth_error (w_tasks w) p with
        | Some t =>
            match k_status t with
            | Taken => if held (k_tok t) w || (pref && wanted (k_tok t) w) then None else Some (set_task w p t (Running (map (fun _ => Todo) (k_texts t))))
            | _ => None
            end
        | None => None
        end
    | LPick p i => step_slot w p i (fun _ s => match s with Todo => if busy w <? workers then Some Waits else None | _ => None end)
    | LEnter p i =>
        step_slot w p i (fun t s => match s with Waits => if held_model (mdl (k_tok t)) w || (pref && wanted_model (mdl (k_tok t)) w) then None else Some Inside | _ => None end)
    | LLeave p i =>
        step_slot w p i (fun t s => match s with
                                    | Inside => option_map (fun x => Filled (one (w_set w (k_tok t)) (w_mod w (mdl (k_tok t))) x)) (nth_error (k_texts t) i)
                                    | _ => None
                                    end)
    | LFinish p =>
        match nth_error (w_tasks w) p with
        | Some t =>
            match k_status t with
            | Running l => match all_filled l with Some rs => Some (set_task w p t (Done (finish (w_set w (k_tok t)) rs))) | None => None end
            | _ => None
            end
        | None => None
        end
    end.

  (** Executions: where the steps lead, and the states on the way, the first and the last
      included. *)
  Fixpoint run (w : world) (l : list label) : option world :=
    match l with
    | [] => Some w
    | a :: l' => match step a w with Some w' => run w' l' | None => None end
    end.
  Fixpoint states (w : world) (l : list label) : list world :=
    w :: match l with [] => [] | a :: l' => match step a w with Some w' => states w' l' | None => [] end end.
  (** Before the program: nothing has been called. *)
  Definition starting (w : world) : Prop := w_tasks w = [] /\ w_main w = Free.
End tasks.
Arguments slot : clear implicits.
Arguments status : clear implicits.
Arguments task : clear implicits.
Arguments stmt : clear implicits.
Arguments main_state : clear implicits.
Arguments world : clear implicits.
Arguments label : clear implicits.
