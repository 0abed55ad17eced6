(** What a user expects of sums over all segmentations: expected counts and samples. *)
From Coq Require Import Ring_theory.
From Verif Require Import Base EncodingModel UnigramModel UnigramSpec MarginalModel.

(** Exact arithmetic: numbers with 0, 1, + and *, in which [ma_exp] is an
    exponential, [ma_near] is the logarithm of the sum of the exponentials and no
    summand is so small that it is left out. *)
Record exact_marith {W K} (A : arith W) (M : marith W K) (zero one : K) (inv : K -> K) : Prop := {
  xm_ring : semi_ring_theory zero one (ma_plus M) (ma_mul M) eq;
  xm_zero : ma_exp M (a_zero A) = one;
  xm_add : forall a b, ma_exp M (a_add A a b) = ma_mul M (ma_exp M a) (ma_exp M b);
  xm_far : forall a b, ma_far M a b = false;
  xm_near : forall a b, ma_exp M (ma_near M a b) = ma_plus M (ma_exp M a) (ma_exp M b);
  xm_sub : forall a b, ma_exp M (ma_sub M a b) = ma_mul M (ma_exp M a) (inv (ma_exp M b));
  xm_inv : forall a, ma_mul M (ma_exp M a) (inv (ma_exp M a)) = one }.

Section spec.
  Context {W K : Type} (A : arith W) (M : marith W K) (zero one : K) (inv : K -> K).

  (** The sum of a list of numbers. *)
  Definition ksum (l : list K) : K := fold_right (ma_plus M) zero l.

  (** The segmentations of a text, each once, in some order. *)
  Definition all_segmentations (m : unigram W) (s : str) (segs : list (list (str * N * W))) : Prop :=
    NoDup segs /\ forall seg, In seg segs <-> segmentation A m s seg.

  (** The likelihood of a segmentation: the product of those of its items. *)
  Definition likelihood (seg : list (str * N * W)) : K := fold_right (fun it k => ma_mul M (ma_exp M (snd it)) k) one seg.
  (** How often an id is in a segmentation, as a number. *)
  Definition times (id : N) (seg : list (str * N * W)) : K := ksum (map (fun it => if N.eqb id (snd (fst it)) then one else zero) seg).

  (** The likelihood of a text, and the sum of the counts of an id weighted by likelihood. *)
  Definition evidence (segs : list (list (str * N * W))) : K := ksum (map likelihood segs).
  Definition weighted_count (id : N) (segs : list (list (str * N * W))) : K := ksum (map (fun seg => ma_mul M (likelihood seg) (times id seg)) segs).

  (** A token that is the unknown token begins and ends with characters that are
      tokens, where it is in the text; it usually is not in the text. *)
  Definition unk_apart (m : unigram W) (s : str) : Prop :=
    forall u t w a b, u_unk m = Some u -> nth_error (u_vocab m) (N.to_nat u) = Some (t, w) -> s = a ++ t ++ b ->
    (forall c r, t = c :: r -> In [c] (map fst (u_vocab m))) /\ (forall c r, t = r ++ [c] -> In [c] (map fst (u_vocab m))).

  (** The chance of drawing entry [i] of a list of weights. *)
  Definition draw (ws : list K) (i : nat) : option K := option_map (fun w => ma_mul M w (inv (ksum ws))) (nth_error ws i).

  (** The chance that the draws of [sample] that follow [node] give [path] (the
      last node first) and then the start of the text. *)
  Inductive drawn (la : lattice W) (theta : K) (bos : nat) : nat -> list nat -> K -> Prop :=
  | drawn_bos : forall node ends ws i c, sample_weights A M la theta node = Ok (ends, ws) -> nth_error ends i = Some bos -> draw ws i = Some c ->
      drawn la theta bos node [] c
  | drawn_node : forall node ends ws i l c path c', sample_weights A M la theta node = Ok (ends, ws) -> nth_error ends i = Some l -> l <> bos -> draw ws i = Some c ->
      drawn la theta bos l path c' -> drawn la theta bos node (l :: path) (ma_mul M c c').
  Definition chance (la : lattice W) (theta : K) (path : list nat) (c : K) : Prop :=
    exists eos bos, eos_node la = Ok eos /\ bos_node la = Ok bos /\ drawn la theta bos eos (rev path) c.
End spec.
