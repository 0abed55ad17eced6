(** C74 for real numbers: the laws hold, and what leaving out small summands costs. *)
From Coq Require Import Reals Lra Ring_theory.
From Verif Require Import Base AMap UnigramModel UnigramSpec NBestSpec MarginalModel MarginalSpec MarginalProps.
Local Open Scope R_scope.

(** Logarithms as real numbers; [f64::INFINITY] is only the start of a minimum
    (model.rs:124) and is a large number here; K_UNK_PENALTY is 10 (model.rs:78). *)
Definition real_gtb (a b : R) : bool := if Rlt_dec b a then true else false.
Definition real_arith (big : R) : arith R := mkArith 0 big Rplus real_gtb (fun x => x - 10).
(** lattice.rs:118-136 on real numbers; [far] is its test [vmax > vmin + k_minus_log_epsilon]. *)
Definition real_marith (far : R -> R -> bool) : marith R R := mkMarith far (fun vmin vmax => vmax + ln (exp (vmin - vmax) + 1)) Rminus exp Rmult Rmult Rplus.
Definition never (vmin vmax : R) : bool := false.
Definition over_50 (vmin vmax : R) : bool := real_gtb vmax (vmin + 50).

Lemma near_exp a b : exp (b + ln (exp (a - b) + 1)) = exp a + exp b.
Proof.
  rewrite exp_plus, exp_ln; [|pose proof (exp_pos (a - b)); lra]. unfold Rminus. rewrite exp_plus, exp_Ropp. pose proof (exp_pos b). field. lra.
Qed.

(** Real numbers without the cut satisfy every law that C74 needs. *)
Theorem C74_real_laws : forall big, exact_marith (real_arith big) (real_marith never) 0 1 Rinv /\ forall x, ma_scale (real_marith never) 1 x = x.
Proof.
  intros big. split; [|intros x; cbn; ring]. constructor.
  - constructor; intros; cbn; ring.
  - apply exp_0.
  - intros a b. apply exp_plus.
  - reflexivity.
  - intros a b. apply near_exp.
  - intros a b. cbn. unfold Rminus. rewrite exp_plus, exp_Ropp. reflexivity.
  - intros a. cbn. apply Rinv_r. pose proof (exp_pos a). lra.
Qed.

(** With the cut, a sum of two terms is never too large, and too small by a factor
    of at most 1 - exp (-50); terms that are close are summed exactly. *)
Theorem C74_cut : forall big x y, let r := exp (log_sum_exp (real_arith big) (real_marith over_50) x y false) in
  (1 - exp (-50)) * (exp x + exp y) <= r <= exp x + exp y /\ (Rabs (x - y) <= 50 -> r = exp x + exp y).
Proof.
  intros big x y r. unfold r, log_sum_exp. cbn [a_gtb real_arith]. pose proof (exp_pos x) as Px. pose proof (exp_pos y) as Py. pose proof (exp_pos (-50)) as Pe.
  assert (G : forall a b, a <= b -> let r := exp (if ma_far (real_marith over_50) a b then b else ma_near (real_marith over_50) a b) in
    (1 - exp (-50)) * (exp a + exp b) <= r <= exp a + exp b /\ (b - a <= 50 -> r = exp a + exp b)).
  { intros a b LE. cbn [ma_far ma_near real_marith]. unfold over_50, real_gtb. pose proof (exp_pos a) as Pa. pose proof (exp_pos b) as Pb. destruct (Rlt_dec (a + 50) b) as [F|F].
    - split; [|intros; lra]. assert (X : exp a <= exp (-50) * exp b) by (rewrite <- exp_plus; left; apply exp_increasing; lra). split; [|lra]. nra.
    - rewrite near_exp. split; [|auto]. split; nra. }
  unfold real_gtb. destruct (Rlt_dec y x) as [L|L]; cbv iota beta.
  - destruct (G y x ltac:(lra)) as [G1 G2]. split; [lra|]. intros D. rewrite G2; [ring|]. rewrite Rabs_right in D by lra. exact D.
  - destruct (G x y ltac:(lra)) as [G1 G2]. split; [lra|]. intros D. apply G2. rewrite Rabs_left1 in D by lra. lra.
Qed.
