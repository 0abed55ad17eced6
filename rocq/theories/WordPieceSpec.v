(** Greedy longest-match-first segmentation. *)
From Verif Require Import Base AMap EncodingModel.

Section greedy.
  Context (vocab : list (str * N)) (prefix : str).

  (** What is looked up for a piece [x] that comes after [pre]. *)
  Definition entry (pre x : str) : str := match pre with [] => x | _ => prefix ++ x end.

  Definition known (t : str) : Prop := exists id, aget str_eqb t vocab = Some id.

  (** [x] is the longest known piece at the start of [rest], after [pre]. *)
  Definition longest (pre rest x : str) : Prop :=
    x <> [] /\ (exists rest', rest = x ++ rest') /\ known (entry pre x) /\
    forall y z, rest = y ++ z -> y <> [] -> known (entry pre y) -> length y <= length x.

  (** The segmentation of [rest], after [pre]. *)
  Inductive greedy : str -> str -> list str -> Prop :=
  | greedy_end : forall pre, greedy pre [] []
  | greedy_piece : forall pre x rest xs, longest pre (x ++ rest) x -> greedy (pre ++ x) rest xs -> greedy pre (x ++ rest) (x :: xs).

  (** Tokens for the pieces: id of the entry, entry, place in the word. *)
  Fixpoint tokens_of (pre : str) (xs : list str) (toks : list token) : Prop :=
    match xs, toks with
    | [], [] => True
    | x :: xs', t :: toks' =>
        aget str_eqb (entry pre x) vocab = Some (t_id t) /\ t_value t = entry pre x /\
        t_offsets t = (blen pre, blen pre + blen x) /\ tokens_of (pre ++ x) xs' toks'
    | _, _ => False
    end.
End greedy.
