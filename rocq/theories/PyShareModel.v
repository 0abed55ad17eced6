(** Model of the components that tokenizers and Python objects share: normalizers,
    pre-tokenizers and post-processors live in cells behind [Arc<RwLock<..>>].
    Source: /repo/bindings/python/src/normalizers.rs, pre_tokenizers.rs, processors.rs and
    tokenizer.rs.  One kind of component is modelled, one call at a time (the calls hold the
    GIL). *)
From Verif Require Import Base.

(** The content of a cell: a component of some class with its attributes, a Python object
    given to [custom], or a sequence that was loaded inside a sequence. *)
Inductive value (A C : Type) := Plain (k : nat) (a : A) | Custom (c : C) | Nest (l : list (value A C)).
Arguments Plain {A C}. Arguments Custom {A C}. Arguments Nest {A C}.
(** [PyNormalizerTypeWrapper], normalizers.rs:868-872; a cell is named by its number. *)
Inductive comp := One (a : nat) | Many (l : list nat).
(** The Python class of an object, which does not change: the base class (for [custom]),
    [Sequence], or that of the components of kind [k]. *)
Inductive cls := ClBase | ClSeq | ClKind (k : nat).
Record object := mkObj { ob_class : cls; ob_comp : comp }.
(** What exists: cells, Python objects and tokenizers with their component, all numbered. *)
Record world (A C : Type) := mkWorld { cells : list (value A C); objs : list object; toks : list (option comp) }.
Arguments mkWorld {A C}. Arguments cells {A C}. Arguments objs {A C}. Arguments toks {A C}.

(** What a call does: it returns, raises, or waits for ever for a lock its own thread holds. *)
Inductive ended := Done | Raised | Hung.

(** The calls.  Objects and tokenizers are given by number; those that are made get the next
    number. *)
Inductive op (A C : Type) :=
| ONew (k : nat) (a : A)                 (* Lowercase(), Strip(left=False), ... *)
| OCustom (c : C)                        (* Normalizer.custom(c) *)
| OSeq (l : list nat)                    (* Sequence([..]) *)
| OItem (o i : nat)                      (* o[i] *)
| OSetItem (o i p : nat)                 (* o[i] = p *)
| OSet (o : nat) (f : A -> A)            (* o.name = value *)
| OLoad (v : value A C)                  (* an object from a document *)
| OCopy (o : nat)                        (* copy.copy(o), pickle *)
| OTok                                   (* Tokenizer(model) *)
| OAssign (t : nat) (o : option nat)     (* t.normalizer = o *)
| ORead (t : nat)                        (* t.normalizer *)
| OCopyTok (t : nat).                    (* copy.copy(t), pickle *)
Arguments ONew {A C}. Arguments OCustom {A C}. Arguments OSeq {A C}. Arguments OItem {A C}. Arguments OSetItem {A C}.
Arguments OSet {A C}. Arguments OLoad {A C}. Arguments OCopy {A C}. Arguments OTok {A C}. Arguments OAssign {A C}.
Arguments ORead {A C}. Arguments OCopyTok {A C}.

Section share.
  Context {A C X E : Type}.
  (** What components do with their input ([normalize], [pre_tokenize],
      [process_encodings]). *)
  Variables (act : nat -> A -> X -> res E X) (call : C -> X -> res E X).
  (** How [__getitem__] treats a loaded inner sequence: true for normalizers
      (normalizers.rs:482-484), false elsewhere (pre_tokenizers.rs:665-667,
      processors.rs:822-824). *)
  Variable lone : bool.

  (** [Normalizer for PyNormalizerWrapper], normalizers.rs:961-968, and the sequences of the
      Rust library, normalizers/utils.rs:42-49. *)
  Fixpoint apply (v : value A C) (x : X) : res E X :=
    match v with
    | Plain k a => act k a x
    | Custom c => call c x
    | Nest l => (fix each l x := match l with [] => Ok x | v :: l' => let! y := apply v x in each l' y end) l x
    end.
  (** [Normalizer for PyNormalizerTypeWrapper], normalizers.rs:945-959; the same for
      pre-tokenizers (pre_tokenizers.rs:1027-1041) and processors (processors.rs:243-265). *)
  Definition apply_cell (h : list (value A C)) (a : nat) (x : X) : res E X :=
    match nth_error h a with Some v => apply v x | None => Panic end.
  Fixpoint apply_cells (h : list (value A C)) (l : list nat) (x : X) : res E X :=
    match l with [] => Ok x | a :: l' => let! y := apply_cell h a x in apply_cells h l' y end.
  Definition apply_comp (h : list (value A C)) (c : comp) (x : X) : res E X :=
    match c with One a => apply_cell h a x | Many l => apply_cells h l x end.

  (** [get_as_subtype], normalizers.rs:60-105. *)
  Definition class_of (v : value A C) : cls := match v with Plain k _ => ClKind k | Custom _ => ClBase | Nest _ => ClSeq end.
  Definition subtype (h : list (value A C)) (c : comp) : option object :=
    match c with
    | Many _ => Some (mkObj ClSeq c)
    | One a => match nth_error h a with Some v => Some (mkObj (class_of v) c) | None => None end
    end.

  Definition put (h : list (value A C)) (a : nat) (v : value A C) : list (value A C) := firstn a h ++ match skipn a h with [] => [] | _ :: t => v :: t end.
  (** [From<PyNormalizerWrapper> for PyNormalizerTypeWrapper], normalizers.rs:915-932: new
      cells, one for each member of a sequence. *)
  Definition load (h : list (value A C)) (v : value A C) : list (value A C) * comp :=
    match v with
    | Nest l => (h ++ l, Many (seq (List.length h) (List.length l)))
    | _ => (h ++ [v], One (List.length h))
    end.
  (** Python objects are not serialized (normalizers.rs:827-836). *)
  Fixpoint saves (v : value A C) : bool :=
    match v with Plain _ _ => true | Custom _ => false | Nest l => (fix each l := match l with [] => true | v :: l' => saves v && each l' end) l end.
  Fixpoint contents (h : list (value A C)) (l : list nat) : option (list (value A C)) :=
    match l with
    | [] => Some []
    | a :: l' => match nth_error h a, contents h l' with Some v, Some r => Some (v :: r) | _, _ => None end
    end.
  (** [Serialize for PyNormalizerTypeWrapper], normalizers.rs:889-904. *)
  Definition document (h : list (value A C)) (c : comp) : option (value A C) :=
    match c with
    | One a => match nth_error h a with Some v => if saves v then Some v else None | None => None end
    | Many l => match contents h l with Some vs => if forallb saves vs then Some (Nest vs) else None | None => None end
    end.
  (** The cells of the members of a new [Sequence], normalizers.rs:446-453. *)
  Definition cells_of (c : comp) : list nat := match c with One a => [a] | Many l => l end.
  Fixpoint members (os : list object) (l : list nat) : option (list nat) :=
    match l with
    | [] => Some []
    | o :: l' => match nth_error os o, members os l' with Some b, Some r => Some (cells_of (ob_comp b) ++ r) | _, _ => None end
    end.

  Definition add_obj (w : world A C) (h : list (value A C)) (b : object) : world A C * ended := (mkWorld h (objs w ++ [b]) (toks w), Done).
  Definition set_tok (l : list (option comp)) (t : nat) (c : option comp) : list (option comp) := firstn t l ++ match skipn t l with [] => [] | _ :: r => c :: r end.
  (** One call.  A number that names nothing stands for a value of another type. *)
  Definition step (w : world A C) (c : op A C) : world A C * ended :=
    let h := cells w in
    let raised := (w, Raised) in
    match c with
    | ONew k a => add_obj w (h ++ [Plain k a]) (mkObj (ClKind k) (One (List.length h)))
    | OCustom c => add_obj w (h ++ [Custom c]) (mkObj ClBase (One (List.length h)))
    (* [PySequence::new], normalizers.rs:445-460 *)
    | OSeq l => match members (objs w) l with Some m => add_obj w h (mkObj ClSeq (Many m)) | None => raised end
    (* [__getitem__], normalizers.rs:473-486: another object for the same cell *)
    | OItem o i =>
        match nth_error (objs w) o with
        | Some (mkObj ClSeq (Many l)) =>
            match nth_error l i with
            | Some a => match subtype h (One a) with Some b => add_obj w h b | None => raised end
            | None => raised
            end
        | Some (mkObj ClSeq (One a)) =>
            if lone then match subtype h (One a) with Some b => add_obj w h b | None => raised end else raised
        | _ => raised
        end
    (* [__setitem__], normalizers.rs:488-514.  The right side is evaluated first and its
       guard lives until the end of the statement: [write] waits for it if the cells are the
       same. *)
    | OSetItem o i p =>
        match nth_error (objs w) p, nth_error (objs w) o with
        | Some (mkObj _ (One b)), Some (mkObj ClSeq (Many l)) =>
            match nth_error l i with
            | Some a =>
                if Nat.eqb a b then (w, Hung)
                else match nth_error h b with Some v => (mkWorld (put h a v) (objs w) (toks w), Done) | None => raised end
            | None => raised
            end
        | _, _ => raised
        end
    (* [setter!], normalizers.rs:213-225: nothing happens if the cell holds something else *)
    | OSet o f =>
        match nth_error (objs w) o with
        | Some (mkObj (ClKind k) (One a)) =>
            match nth_error h a with
            | Some (Plain k' x) => (if Nat.eqb k k' then mkWorld (put h a (Plain k (f x))) (objs w) (toks w) else w, Done)
            | _ => (w, Done)
            end
        | Some (mkObj (ClKind k) (Many _)) => (w, Done)
        | _ => raised
        end
    | OLoad v => let '(h', c) := load h v in match subtype h' c with Some b => add_obj w h' b | None => raised end
    (* [__getstate__] and [__setstate__], normalizers.rs:125-146: the class stays *)
    | OCopy o =>
        match nth_error (objs w) o with
        | Some b => match document h (ob_comp b) with Some v => let '(h', c) := load h v in add_obj w h' (mkObj (ob_class b) c) | None => raised end
        | None => raised
        end
    | OTok => (mkWorld h (objs w) (toks w ++ [None]), Done)
    (* [set_normalizer] and [get_normalizer], tokenizer.rs:1893-1914 *)
    | OAssign t None => match nth_error (toks w) t with Some _ => (mkWorld h (objs w) (set_tok (toks w) t None), Done) | None => raised end
    | OAssign t (Some o) =>
        match nth_error (toks w) t, nth_error (objs w) o with
        | Some _, Some b => (mkWorld h (objs w) (set_tok (toks w) t (Some (ob_comp b))), Done)
        | _, _ => raised
        end
    | ORead t =>
        match nth_error (toks w) t with
        | Some (Some c) => match subtype h c with Some b => add_obj w h b | None => raised end
        | _ => raised
        end
    (* [__getstate__] and [__setstate__], tokenizer.rs:686-707 *)
    | OCopyTok t =>
        match nth_error (toks w) t with
        | Some (Some c) => match document h c with Some v => let '(h', c') := load h v in (mkWorld h' (objs w) (toks w ++ [Some c']), Done) | None => raised end
        | Some None => (mkWorld h (objs w) (toks w ++ [None]), Done)
        | None => raised
        end
    end.
  (** A program: [None] if one of its calls hangs. *)
  Fixpoint run (w : world A C) (cs : list (op A C)) : option (world A C) :=
    match cs with
    | [] => Some w
    | c :: cs' => match step w c with (_, Hung) => None | (w', _) => run w' cs' end
    end.
  Definition nothing : world A C := mkWorld [] [] [].

  (** [getter!], normalizers.rs:195-211: [Err] if the object has no such attribute. *)
  Definition attr (w : world A C) (o : nat) : res unit A :=
    match nth_error (objs w) o with
    | Some (mkObj (ClKind k) (One a)) =>
        match nth_error (cells w) a with Some (Plain k' x) => if Nat.eqb k k' then Ok x else Panic | _ => Panic end
    | Some (mkObj (ClKind k) (Many _)) => Panic
    | _ => Err tt
    end.
  (** What an object does ([normalize_str], ...) and what a tokenizer does with its
      component. *)
  Definition use_obj (w : world A C) (o : nat) (x : X) : res E X :=
    match nth_error (objs w) o with Some b => apply_comp (cells w) (ob_comp b) x | None => Panic end.
  Definition use_tok (w : world A C) (t : nat) (x : X) : res E X :=
    match nth_error (toks w) t with Some (Some c) => apply_comp (cells w) c x | Some None => Ok x | None => Panic end.
End share.
