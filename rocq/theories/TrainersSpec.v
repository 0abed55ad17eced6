(** What a user expects of the trainers of WordLevel, WordPiece and Unigram. *)
From Verif Require Import Base AMap Utf8 EncodingModel BpeModel UnigramModel UnigramSpec WordPieceModel.
From Coq Require Export Sorting.Permutation Sorting.Sorted.

(** Texts in the order of code points. *)
Definition text_before (a b : str) : Prop :=
  (exists c r, b = a ++ c :: r) \/ exists p x y r r', a = p ++ x :: r /\ b = p ++ y :: r' /\ (x < y)%N.

(** Counted words: the more frequent first, equally frequent ones in the order of texts. *)
Definition word_before (a b : str * N) : Prop :=
  (snd b < snd a)%N \/ (snd a = snd b /\ text_before (fst a) (fst b)).

(** [toks] are all the tokens, in the order of ids and without gaps. *)
Definition numbered (to_id : str -> option N) (to_token : N -> option str) (toks : list str) : Prop :=
  NoDup toks /\
  (forall t i, to_id t = Some i <-> nth_error toks (N.to_nat i) = Some t) /\
  (forall i, to_token i = nth_error toks (N.to_nat i)).

(** The characters of the counted words and of the initial alphabet. *)
Definition corpus_char (wc : list (str * N)) (initial : list char) (c : char) : Prop :=
  In c initial \/ exists w n, In (w, n) wc /\ In c w.

(** The unknown token is put in front if it is not a special token. *)
Definition unk_in_front (unk : option str) (special : list str) (front : list str) : Prop :=
  match unk with
  | None => front = []
  | Some u => (In u special -> front = []) /\ (~ In u special -> front = [u])
  end.

(** Pruning only drops pieces. *)
Definition only_drops {W} (prune : nat -> list (str * W) -> option (list (str * W))) : Prop :=
  forall k ps ps', prune k ps = Some ps' -> incl (map fst ps') (map fst ps).
(** A set in any order. *)
Definition any_order (arrange : list str -> list str) : Prop := forall l, Permutation l (arrange l).
