(** Model of indexing and slicing a [NormalizedString] from Python.
    Source: /repo/bindings/python/src/utils/normalization.rs. *)
From Verif Require Import Base StrBytes EncodingModel NormModel.

(** [PyRange], normalization.rs:54-62: an index, a tuple of two positions, a slice with
    its three optional parts (those of type [int]). *)
Inductive py_range :=
| RSingle (i : Z)
| RRange (s e : nat)
| RSlice (start stop step : option Z).

(** [slice.indices(len)] of Python, [PySlice_Unpack] and [PySlice_AdjustIndices] of
    CPython: start and stop (either may be -1 with a negative step); a step of 0 is a
    [ValueError]. *)
Open Scope Z_scope.
Definition adjust (len step v : Z) : Z :=
  if v <? 0 then (if v + len <? 0 then (if step <? 0 then -1 else 0) else v + len)
  else if len <=? v then (if step <? 0 then len - 1 else len) else v.
Definition slice_indices (len : Z) (start stop step : option Z) : option (Z * Z) :=
  let st := match step with Some k => k | None => 1 end in
  if st =? 0 then None
  else Some (match start with Some v => adjust len st v | None => if st <? 0 then len - 1 else 0 end,
             match stop with Some v => adjust len st v | None => if st <? 0 then -1 else len end).
Close Scope Z_scope.

(** [-1 as usize] is larger than any position; one more than the length stands for it. *)
Definition as_usize (max_len : nat) (z : Z) : nat := if (z <? 0)%Z then S max_len else Z.to_nat z.

(** [to_range], normalization.rs:64-87; [Err tt] is a [ValueError].  The step is not
    looked at. *)
Definition to_range (r : py_range) (max_len : nat) : res unit (nat * nat) :=
  match r with
  | RSingle i =>
      if (i <? 0)%Z then
        let k := Z.to_nat (- i) in
        if max_len <? k then Err tt else Ok (max_len - k, max_len - k + 1)
      else Ok (Z.to_nat i, Z.to_nat i + 1)
  | RRange s e => Ok (s, e)
  | RSlice start stop step =>
      match slice_indices (Z.of_nat max_len) start stop step with
      | Some (a, b) => Ok (as_usize max_len a, as_usize max_len b)
      | None => Err tt
      end
  end.

(** [slice], normalization.rs:174-188, also [__getitem__]; the answer may be [None].
    [n_len] is the number of bytes.  Panic: the subtraction in [char_to_bytes]
    overflows (without overflow checks the range then reaches to the end of the text). *)
Definition py_slice (ns : nstring) (r : py_range) : res unit (option nstring) :=
  let! ab := to_range r (n_len ns) in
  match char_to_bytes (n_normalized ns) (fst ab) (snd ab) with
  | Ok (Some (x, y)) => match n_slice ns (rn x y) with Ok n => Ok (Some n) | Err _ => Ok None | Panic => Panic end
  | Ok None => Ok None
  | Err _ | Panic => Panic
  end.
