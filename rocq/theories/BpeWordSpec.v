(** What BPE merging should do, on plain lists of (id, byte length). *)
From Verif Require Import Base BpeWordModel.
From Coq Require Export Sorting.Permutation Relations.Relation_Operators.
From Coq Require Export ZArith.

(** The word built by adding the symbols in order, and what is seen of a word. *)
Definition word_of (l : list (N * nat)) : word := fold_left (fun w s => word_add w (fst s) (snd s)) l [].
Definition word_view (w : word) : list (N * nat) := map (fun s => (sy_c s, sy_len s)) w.

(** [l'] is [l] where the rule of rank [r] was applied at index [k]. *)
Inductive applies (merges : merge_map) (l : list (N * nat)) (k : nat) (r : N) (l' : list (N * nat)) : Prop :=
| applies_at : forall pre a la b lb post n,
    l = pre ++ (a, la) :: (b, lb) :: post -> length pre = k -> merges a b = Some (r, n) ->
    l' = pre ++ (n, la + lb) :: post -> applies merges l k r l'.

(** One step of the defining algorithm: the lowest rank, leftmost among equals. *)
Definition greedy (merges : merge_map) (l l' : list (N * nat)) : Prop :=
  exists k r, applies merges l k r l' /\
    forall k' r' l'', applies merges l k' r' l'' -> (r < r')%N \/ (r = r' /\ k <= k').

Definition steps (R : list (N * nat) -> list (N * nat) -> Prop) := clos_refl_trans_1n _ R.

(** The canonical segmentation: greedy steps until no rule applies. *)
Definition canonical (merges : merge_map) (l l' : list (N * nat)) : Prop :=
  steps (greedy merges) l l' /\ forall k r l'', ~ applies merges l' k r l''.

(** Applying rules in any order. *)
Definition derives (merges : merge_map) (l l' : list (N * nat)) : Prop :=
  steps (fun a b => exists k r, applies merges a k r b) l l'.

(** What [pop] of a heap ordered by (rank, position) may return: ties are free. *)
Definition heap_ok (pop : list merge -> option (merge * list merge)) : Prop :=
  pop [] = None /\
  forall q, q <> [] -> exists e q', pop q = Some (e, q') /\ Permutation q (e :: q') /\
    forall e', In e' q' -> (mg_rank e < mg_rank e')%N \/ (mg_rank e = mg_rank e' /\ mg_pos e <= mg_pos e').

(** A weight of ids (such as the length of their text) that merging adds up. *)
Definition additive (merges : merge_map) (wt : N -> Z) : Prop :=
  forall a b r n, merges a b = Some (r, n) -> wt n = (wt a + wt b)%Z.
