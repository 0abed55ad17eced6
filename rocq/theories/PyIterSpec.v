(** What a Python iterator over texts, or over batches of texts, gives. *)
From Verif Require Import Base StrBytes Utf8 PyInputModel PyInputSpec PyIterModel.

(** The elements of a batch are texts. *)
Definition batch_says (l : list (py_event pyobj)) (ts : list str) : Prop := Forall2 (fun ev t => exists o, ev = Yields o /\ says_text o t) l ts.

(** One element says some texts. *)
Inductive element_says : py_element -> list str -> Prop :=
| el_text s t : says_text (PyStr s) t -> element_says (ElStr s) [t]
| el_batch l ts : batch_says l ts -> element_says (ElIter l) ts.

(** The texts of an iterator, in order; it never raises. *)
Inductive gives : list (py_event py_element) -> list str -> Prop :=
| gives_nil : gives [] []
| gives_cons el ts events us : element_says el ts -> gives events us -> gives (Yields el :: events) (ts ++ us).

(** What a conversion to text can fail with. *)
Inductive not_text : pyobj -> iter_error -> Prop :=
| nt_surrogate s : ~ Forall (fun c => is_scalar c = true) s -> not_text (PyStr s) (IBad EUnicode)
| nt_other o : (forall s, o <> PyStr s) -> not_text o (IBad EType).

(** An element that is not all text: the texts of it before the error, and the error. *)
Inductive element_fails : py_element -> list str -> iter_error -> Prop :=
| ef_str s e : not_text (PyStr s) e -> element_fails (ElStr s) [] e
| ef_item l ts o e rest : batch_says l ts -> not_text o e -> element_fails (ElIter (l ++ Yields o :: rest)) ts e
| ef_raise l ts rest : batch_says l ts -> element_fails (ElIter (l ++ Raises :: rest)) ts IRaised
| ef_other : element_fails ElOther [] (IBad EType).

(** An iterator that gives texts up to an error, at an element or because it raises. *)
Inductive stops : list (py_event py_element) -> list str -> iter_error -> Prop :=
| stop_element before ts el us e after : gives before ts -> element_fails el us e -> stops (before ++ Yields el :: after) (ts ++ us) e
| stop_raise before ts after : gives before ts -> stops (before ++ Raises :: after) ts IRaised.

Definition never_raises (events : list (py_event py_element)) : Prop := ~ In Raises events.
