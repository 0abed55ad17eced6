(** Specification of what a pattern must return (C16). *)
From Verif Require Import Base StrBytes NormSpec.

(** Every character of the text with the flag of the slice it lies in. *)
Definition char_flags (segs : list (str * bool)) : list (char * bool) :=
  flat_map (fun s => map (fun c => (c, snd s)) (fst s)) segs.

(** Between two matches there is at most one unmatched slice. *)
Fixpoint gaps_maximal (segs : list (str * bool)) : Prop :=
  match segs with
  | (_, false) :: (((_, false) :: _) as r) => False
  | _ :: r => gaps_maximal r
  | [] => True
  end.

(** What is assumed of a regex engine: ordered, non-overlapping matches on
    character boundaries, all from [from] on. *)
Fixpoint engine_matches (s : str) (from : nat) (ms : list (nat * nat)) : Prop :=
  match ms with
  | [] => True
  | (a, b) :: r =>
      from <= a /\ a <= b /\ is_boundary s a = true /\ is_boundary s b = true /\ engine_matches s b r
  end.

(** Leftmost non-overlapping occurrences of a literal: matched slices are the
    literal, and it does not occur starting anywhere inside an unmatched slice. *)
Fixpoint leftmost_literal (pat : str) (segs : list (str * bool)) : Prop :=
  match segs with
  | [] => True
  | (t, f) :: r =>
      (if f then t = pat
       else forall u v w, t = u ++ v -> v <> [] -> v ++ concat (map fst r) <> pat ++ w) /\
      leftmost_literal pat r
  end.
