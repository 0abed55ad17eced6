(** Indexing and slicing of a [str] in Python (the Python language reference). *)
From Verif Require Import Base StrBytes EncodingModel NormModel.

(** [s[i]]. *)
Definition python_item {A} (s : list A) (i : Z) : option A :=
  if (0 <=? i)%Z then nth_error s (Z.to_nat i)
  else if (0 <=? i + Z.of_nat (length s))%Z then nth_error s (Z.to_nat (i + Z.of_nat (length s))) else None.
(** The position that a bound stands for, and [s[start:stop]]. *)
Definition position (len : nat) (v : Z) : nat := if (v <? 0)%Z then Z.to_nat (v + Z.of_nat len) else Nat.min len (Z.to_nat v).
Definition first_position (len : nat) (start : option Z) : nat := match start with Some v => position len v | None => 0 end.
Definition last_position (len : nat) (stop : option Z) : nat := match stop with Some v => position len v | None => len end.
Definition python_slice {A} (s : list A) (start stop : option Z) : list A :=
  firstn (last_position (length s) stop - first_position (length s) start) (skipn (first_position (length s) start) s).

Definition ascii (s : str) : Prop := Forall (fun c => (c < 128)%N) s.

(** [x] is the part of [ns] whose text, after [p], is [m], with the piece of the
    original text that [m] comes from. *)
Definition cut_out (ns : nstring) (p m : str) (x : nstring) : Prop :=
  n_normalized x = m /\ (exists q, n_normalized ns = p ++ m ++ q) /\
  exists s e, convert_offsets ns (rn (blen p) (blen p + blen m)) = Some (s, e) /\
    str_get (n_original ns) s e = Some (n_original x) /\ offsets_original x = (n_shift ns + s, n_shift ns + e).
