(** [repr] and [str] of Python objects.
    Source: /repo/bindings/python/src/utils/serde_pyo3.rs. *)
From Coq Require Import ZArith String.
From Verif Require Import Base StrBytes VisualModel.

(** What a [Serialize] implementation passes to the serializer (the data model of serde).
    [Some] and newtype structs are left out: they serialize as what is in them (176-181,
    214-219), as are byte arrays, which are sequences of numbers (156-163). The text of
    a float is given ([f64::to_string]). *)
Inductive value :=
| VBool (b : bool)
| VInt (z : Z)
| VFloat (text : str)
| VStr (s : str)
| VNone
| VUnit (variant : str)
| VNew (variant : str) (v : value)
| VSeq (l : list value)
| VTuple (l : list value)
| VTupleVariant (variant : str) (l : list value)
| VMap (l : list (value * value))
| VStruct (name : str) (l : list (str * value))
| VStructVariant (variant : str) (l : list (str * value)).

(** [Serializer], 5-17. *)
Record ser := mkSer { s_out : str; s_nums : list nat; s_level : nat }.
Record limits := mkLimits { l_elements : nat; l_depth : nat; l_string : option nat }.
(** [to_string], 24-40, and [repr], 42-58 ([usize::MAX] is no limit). *)
Definition str_limits : limits := mkLimits 6 20 (Some 100).
Definition repr_limits : limits := mkLimits 100 200 None.

Definition put (x : str) (s : ser) : ser := mkSer (s_out s ++ x) (s_nums s) (s_level s).
(** [output.ends_with(c)]. *)
Definition ends_with (c : char) (s : ser) : bool := match rev (s_out s) with d :: _ => N.eqb c d | [] => false end.
(** [num_elements[level] = n]. *)
Definition set_num (n : nat) (s : ser) : res unit ser :=
  if s_level s <? length (s_nums s) then Ok (mkSer (s_out s) (firstn (s_level s) (s_nums s) ++ n :: skipn (S (s_level s)) (s_nums s)) (s_level s)) else Panic.
Definition get_num (s : ser) : res unit nat := of_option (nth_error (s_nums s) (s_level s)).

Section printing.
Context (L : limits).

(** 251-256 and the others: the start of a compound value, with [x] written first. *)
Definition open_group (x : str) (s : ser) : res unit ser :=
  set_num 0 (mkSer (s_out s ++ x) (s_nums s) (Nat.min (l_depth L - 1) (s_level s + 1))).
(** 390-395 and the others: the end. *)
Definition close_group (x : str) (s : ser) : res unit ser :=
  let! s := set_num 0 s in Ok (mkSer (s_out s ++ x) (s_nums s) (s_level s - 1)).
(** [serialize_element], 369-387, and those of tuples and keys of maps: [c] is the bracket. *)
Definition element (c : char) (f : ser -> res unit ser) (s : ser) : res unit ser :=
  let! n := get_num s in
  let! s := set_num (n + 1) s in
  if n + 1 <? l_elements L then f (if ends_with c s then s else put (lit ", ") s)
  else Ok (if n + 1 =? l_elements L then put (lit ", ...") s else s).
(** [serialize_value], 528-539. *)
Definition map_value (f : ser -> res unit ser) (s : ser) : res unit ser :=
  let! n := get_num s in
  if n <? l_elements L then f (put (lit ":") s) else Ok s.
(** [serialize_field] of structs, 555-571 ([skip]: the field "type" is left out), and of
    struct variants, 587-598. *)
Definition field (skip : bool) (k : str) (f : ser -> res unit ser) (s : ser) : res unit ser :=
  let s := if ends_with 40 s then s else put (lit ", ") s in
  if skip && str_eqb k (lit "type") then Ok s else f (put (k ++ lit "=") s).
(** [serialize_str], 141-151; slicing a text inside a character panics. *)
Definition print_str (v : str) (s : ser) : res unit ser :=
  match l_string L with
  | Some m => if m <? blen v then let! p := of_option (str_get v 0 m) in Ok (put (quote ++ p ++ lit "..." ++ quote) s)
              else Ok (put (quote ++ v ++ quote) s)
  | None => Ok (put (quote ++ v ++ quote) s)
  end.
Definition int_text (z : Z) : str := if (z <? 0)%Z then lit "-" ++ decimal (Z.abs_N z) else decimal (Z.abs_N z).
(** [strip_suffix("Helper")], 318-322. *)
Definition strip_helper (name : str) : str :=
  if str_eqb (skipn (length name - 6) name) (lit "Helper") then firstn (length name - 6) name else name.

(** The implementation of [ser::Serializer], 60-343. *)
Fixpoint serialize (v : value) (s : ser) : res unit ser :=
  match v with
  | VBool b => Ok (put (if b then lit "True" else lit "False") s)
  | VInt z => Ok (put (int_text z) s)
  | VFloat t => Ok (put t s)
  | VStr t => print_str t s
  | VNone => Ok (put (lit "None") s)
  | VUnit n => Ok (put n s)
  | VNew n v => let! s := serialize v (put (n ++ lit "(") s) in Ok (put (lit ")") s)
  | VSeq l =>
      let! s := open_group (lit "[") s in
      let! s := (fix loop l s := match l with [] => Ok s | x :: l' => let! s := element 91 (serialize x) s in loop l' s end) l s in
      close_group (lit "]") s
  | VTuple l =>
      let! s := open_group (lit "(") s in
      let! s := (fix loop l s := match l with [] => Ok s | x :: l' => let! s := element 40 (serialize x) s in loop l' s end) l s in
      close_group (lit ")") s
  | VTupleVariant n l =>
      let! s := open_group (n ++ lit "(") s in
      let! s := (fix loop l s := match l with [] => Ok s | x :: l' => let! s := element 40 (serialize x) s in loop l' s end) l s in
      close_group (lit ")") s
  | VMap l =>
      let! s := open_group (lit "{") s in
      let! s := (fix loop (l : list (value * value)) s :=
                   match l with
                   | [] => Ok s
                   | (k, x) :: l' => let! s := element 123 (serialize k) s in let! s := map_value (serialize x) s in loop l' s
                   end) l s in
      close_group (lit "}") s
  | VStruct n l =>
      let! s := open_group (strip_helper n ++ lit "(") s in
      let! s := (fix loop (l : list (str * value)) s :=
                   match l with [] => Ok s | (k, x) :: l' => let! s := field true k (serialize x) s in loop l' s end) l s in
      close_group (lit ")") s
  | VStructVariant n l =>
      let! s := open_group (n ++ lit "(") s in
      let! s := (fix loop (l : list (str * value)) s :=
                   match l with [] => Ok s | (k, x) :: l' => let! s := field false k (serialize x) s in loop l' s end) l s in
      close_group (lit ")") s
  end.

Definition printed (v : value) : res unit str :=
  let! s := serialize v (mkSer [] (repeat 0 (l_depth L)) 0) in Ok (s_out s).
End printing.

(** [__str__] and [__repr__] of the Python classes. *)
Definition py_str : value -> res unit str := printed str_limits.
Definition py_repr : value -> res unit str := printed repr_limits.
