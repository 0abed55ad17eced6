(** The expressions that [repr] and [str] write (C93). *)
From Coq Require Import ZArith String.
From Verif Require Import Base StrBytes VisualModel PyReprModel.

(** ** Expressions *)
Inductive bracket := Round | Square | Curly.
(** Words (names and numbers), quoted texts, groups in brackets with a name (which may be
    empty) in front; in a group also named arguments, entries of dictionaries and dots. *)
Inductive expr :=
| EWord (w : str)
| EText (t : str)
| EGroup (name : str) (b : bracket) (items : list expr)
| ENamed (k : str) (e : expr)
| EEntry (k e : expr)
| EDots.
Definition opening (b : bracket) : str := match b with Round => lit "(" | Square => lit "[" | Curly => lit "{" end.
Definition closing (b : bracket) : str := match b with Round => lit ")" | Square => lit "]" | Curly => lit "}" end.
Fixpoint commas (l : list str) : str := match l with [] => [] | [x] => x | x :: l' => x ++ lit ", " ++ commas l' end.
Fixpoint text_of (e : expr) : str :=
  match e with
  | EWord w => w
  | EText t => quote ++ t ++ quote
  | EGroup n b l => n ++ opening b ++ commas (map text_of l) ++ closing b
  | ENamed k e => k ++ lit "=" ++ text_of e
  | EEntry k e => text_of k ++ lit ":" ++ text_of e
  | EDots => lit "..."
  end.

(** ** What a value should be written as *)
(** Of a list of [n] or more things the first [n - 1] are shown, and dots. *)
Definition some_of (n : nat) {A} (dots : A) (l : list A) : list A := if length l <? n then l else firstn (n - 1) l ++ [dots].
Fixpoint all_some {A} (l : list (option A)) : option (list A) :=
  match l with [] => Some [] | Some x :: l' => option_map (cons x) (all_some l') | None :: _ => None end.
Definition group (name : str) (b : bracket) (items : list (option expr)) : option expr := option_map (EGroup name b) (all_some items).
(** Texts of more than [m] bytes are cut after [m] bytes, which may not be possible. *)
Definition shown_text (m : option nat) (t : str) : option str :=
  match m with
  | None => Some t
  | Some m => if m <? blen t then option_map (fun p => p ++ lit "...") (str_get t 0 m) else Some t
  end.
Definition both {A B C} (f : A -> B -> C) (a : option A) (b : option B) : option C :=
  match a, b with Some x, Some y => Some (f x y) | _, _ => None end.
(** The expression of a value; None if a text cannot be cut. *)
Fixpoint expr_of (L : limits) (v : value) : option expr :=
  match v with
  | VBool b => Some (EWord (if b then lit "True" else lit "False"))
  | VInt z => Some (EWord (int_text z))
  | VFloat t => Some (EWord t)
  | VStr t => option_map EText (shown_text (l_string L) t)
  | VNone => Some (EWord (lit "None"))
  | VUnit n => Some (EWord n)
  | VNew n v => group n Round [expr_of L v]
  | VSeq l => group [] Square (some_of (l_elements L) (Some EDots) (map (expr_of L) l))
  | VTuple l => group [] Round (some_of (l_elements L) (Some EDots) (map (expr_of L) l))
  | VTupleVariant n l => group n Round (some_of (l_elements L) (Some EDots) (map (expr_of L) l))
  | VMap l => group [] Curly (some_of (l_elements L) (Some EDots) (map (fun kx => both EEntry (expr_of L (fst kx)) (expr_of L (snd kx))) l))
  | VStruct n l => group (strip_helper n) Round (flat_map (fun kx => if str_eqb (fst kx) (lit "type") then [] else [option_map (ENamed (fst kx)) (expr_of L (snd kx))]) l)
  | VStructVariant n l => group n Round (map (fun kx => option_map (ENamed (fst kx)) (expr_of L (snd kx))) l)
  end.

(** ** Which values *)
(** How many compound values are inside one another. *)
Fixpoint depth (v : value) : nat :=
  match v with
  | VNew _ v => depth v
  | VSeq l | VTuple l | VTupleVariant _ l => S (list_max (map depth l))
  | VMap l => S (list_max (map (fun kx => Nat.max (depth (fst kx)) (depth (snd kx))) l))
  | VStruct _ l | VStructVariant _ l => S (list_max (map (fun kx => depth (snd kx)) l))
  | _ => 0
  end.
(** Names are of letters, digits, "_", "." and "-"; the field "type" comes first. *)
Definition word_char (c : char) : Prop := (48 <= c <= 57 \/ 65 <= c <= 90 \/ 97 <= c <= 122 \/ c = 95 \/ c = 45 \/ c = 46)%N.
Definition word (w : str) : Prop := w <> [] /\ Forall word_char w.
Definition plain_value (v : value) : Prop :=
  match v with
  | VFloat t => word t
  | VUnit n | VNew n _ | VTupleVariant n _ => word n
  | VStruct n l => word n /\ Forall (fun kx => word (fst kx)) l /\ (forall k x l', l = (k, x) :: l' -> Forall (fun kx => fst kx <> lit "type") l')
  | VStructVariant n l => word n /\ Forall (fun kx => word (fst kx)) l
  | _ => True
  end.
Fixpoint parts (v : value) : list value :=
  v :: match v with
       | VNew _ v => parts v
       | VSeq l | VTuple l | VTupleVariant _ l => flat_map parts l
       | VMap l => flat_map (fun kx => parts (fst kx) ++ parts (snd kx)) l
       | VStruct _ l | VStructVariant _ l => flat_map (fun kx => parts (snd kx)) l
       | _ => []
       end.
Definition plain_names (v : value) : Prop := Forall plain_value (parts v).

(** ** Which expressions can be read back *)
Definition atom (e : expr) : Prop := match e with EWord _ | EText _ | EGroup _ _ _ => True | _ => False end.
(** Words are of word characters and are not the dots, texts have no quotes. *)
Fixpoint readable (e : expr) : Prop :=
  match e with
  | EWord w => word w /\ w <> lit "..."
  | EText t => ~ In 34%N t
  | EGroup n _ l => Forall word_char n /\ fold_right (fun e P => readable e /\ P) True l
  | ENamed k e => word k /\ atom e /\ readable e
  | EEntry k e => atom k /\ readable k /\ atom e /\ readable e
  | EDots => True
  end.
(** Values with no quote in their texts. *)
Definition unquoted (v : value) : Prop := Forall (fun x => match x with VStr t => ~ In 34%N t | VFloat t | VUnit t => t <> lit "..." | _ => True end) (parts v).
(** Lists and dictionaries of truth values, numbers and texts. *)
Fixpoint data (v : value) : Prop :=
  match v with
  | VBool _ | VInt _ | VStr _ | VNone => True
  | VSeq l => fold_right (fun v P => data v /\ P) True l
  | VMap l => fold_right (fun kx P => data (fst kx) /\ data (snd kx) /\ P) True l
  | _ => False
  end.
(** Compound values have fewer than [n] elements. *)
Definition short (n : nat) (v : value) : Prop :=
  Forall (fun x => match x with VSeq l | VTuple l | VTupleVariant _ l => length l < n | VMap l => length l < n | _ => True end) (parts v).
