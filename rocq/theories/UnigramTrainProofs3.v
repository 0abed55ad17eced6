(** Sums over chunks, in any order. *)
From Coq Require Import Permutation Sorted.
From Verif Require Import Base StrBytes ListFacts AMap Utf8 EncodingModel BpeModel UnigramModel MarginalModel TrainersModel UnigramTrainModel.

(** *** Chunks *)
Lemma chunks_concat {X} n : 0 < n -> forall fuel (l : list X), length l <= fuel -> concat (chunks_of fuel n l) = l.
Proof.
  intros Hn. induction fuel as [|fuel IH]; intros [|x l] L; cbn [chunks_of concat]; try reflexivity; [cbn in L; lia|].
  rewrite IH; [apply firstn_skipn|]. rewrite skipn_length. cbn [length] in *. lia.
Qed.

(** *** Reductions *)
Section reduce.
  Context {X : Type} (unit : X) (op : X -> X -> X) (P : X -> Prop).
  Context (Punit : P unit) (Pop : forall a b, P a -> P b -> P (op a b)).
  Lemma reduce_P t : forall l, Forall P l -> P (fst (reduce unit op t l)) /\ Forall P (snd (reduce unit op t l)).
  Proof.
    induction t as [| |a IHa b IHb]; intros l F; cbn [reduce].
    - destruct F; cbn; auto.
    - cbn. auto.
    - destruct (IHa l F) as [H1 H2]. destruct (reduce unit op a l) as [x l1]. cbn [fst snd] in *. destruct (IHb l1 H2) as [H3 H4]. destruct (reduce unit op b l1) as [y l2]. cbn [fst snd] in *. auto.
  Qed.

  Context (Hl : forall a, P a -> op unit a = a) (Hr : forall a, P a -> op a unit = a) (Ha : forall a b c, P a -> P b -> P c -> op a (op b c) = op (op a b) c).
  Lemma fold_P l : Forall P l -> P (fold_right op unit l).
  Proof. induction 1; cbn; auto. Qed.
  Lemma fold_app a b : Forall P a -> Forall P b -> fold_right op unit (a ++ b) = op (fold_right op unit a) (fold_right op unit b).
  Proof. intros Fa Fb. induction Fa as [|x a Px Fa IH]; cbn [app fold_right]; [symmetry; apply Hl, fold_P, Fb|]. rewrite IH. apply Ha; [exact Px|apply fold_P; exact Fa|apply fold_P; exact Fb]. Qed.

  Lemma reduce_fold t : forall l, leaves t <= length l -> Forall P l -> reduce unit op t l = (fold_right op unit (firstn (leaves t) l), skipn (leaves t) l).
  Proof.
    induction t as [| |a IHa b IHb]; intros l L F; cbn [reduce leaves] in *.
    - destruct F as [|x l Px F]; [cbn in L; lia|]. cbn. rewrite Hr by exact Px. reflexivity.
    - reflexivity.
    - rewrite IHa by (try assumption; lia). rewrite IHb; [|rewrite skipn_length; lia|rewrite <- (firstn_skipn (leaves a) l) in F; apply Forall_app in F; apply F].
      f_equal.
      + replace (firstn (leaves a + leaves b) l) with (firstn (leaves a) l ++ firstn (leaves b) (skipn (leaves a) l)).
        * symmetry. apply fold_app; [rewrite <- (firstn_skipn (leaves a) l) in F; apply Forall_app in F; apply F|].
          rewrite <- (firstn_skipn (leaves a) l) in F. apply Forall_app in F. destruct F as [_ F]. rewrite <- (firstn_skipn (leaves b) (skipn (leaves a) l)) in F. apply Forall_app in F. apply F.
        * rewrite <- (firstn_skipn (leaves a) l) at 3. rewrite firstn_app, firstn_firstn, firstn_length. replace (Nat.min (leaves a + leaves b) (leaves a)) with (leaves a) by lia. replace (leaves a + leaves b - Nat.min (leaves a) (length l)) with (leaves b) by lia. reflexivity.
      + rewrite skipn_skipn. f_equal. lia.
  Qed.
  Lemma reduce_all t l : leaves t = length l -> Forall P l -> fst (reduce unit op t l) = fold_right op unit l.
  Proof. intros L F. rewrite reduce_fold by (try assumption; lia). cbn. rewrite L, firstn_all. reflexivity. Qed.
End reduce.

(** *** Vectors *)
Lemma zip_with_length {X Y Z} (f : X -> Y -> Z) a : forall b, length (zip_with f a b) = Nat.min (length a) (length b).
Proof. induction a as [|x a IH]; intros [|y b]; cbn; try reflexivity. rewrite IH. reflexivity. Qed.
Lemma zip_with_nth {X} (f : X -> X -> X) d a : forall b i, i < length a -> i < length b -> nth i (zip_with f a b) d = f (nth i a d) (nth i b d).
Proof. induction a as [|x a IH]; intros [|y b] [|i] L1 L2; cbn in *; try lia; [reflexivity|]. apply IH; lia. Qed.
Lemma zip_with_assoc {X} (f : X -> X -> X) : (forall x y z, f x (f y z) = f (f x y) z) -> forall a b c, zip_with f a (zip_with f b c) = zip_with f (zip_with f a b) c.
Proof. intros H. induction a as [|x a IH]; intros [|y b] [|z c]; cbn; try reflexivity. rewrite H, IH. reflexivity. Qed.
Lemma zip_with_unit_l {X} (f : X -> X -> X) u : (forall x, f u x = x) -> forall a, zip_with f (repeat u (length a)) a = a.
Proof. intros H. induction a as [|x a IH]; cbn; [reflexivity|]. rewrite H, IH. reflexivity. Qed.
Lemma zip_with_unit_r {X} (f : X -> X -> X) u : (forall x, f x u = x) -> forall a, zip_with f a (repeat u (length a)) = a.
Proof. intros H. induction a as [|x a IH]; cbn; [reflexivity|]. rewrite H, IH. reflexivity. Qed.

Lemma fold_zip_nth {X} (f : X -> X -> X) u n i : i < n -> forall vs, Forall (fun v => length v = n) vs ->
  nth i (fold_right (zip_with f) (repeat u n) vs) u = fold_right f u (map (fun v => nth i v u) vs) /\ length (fold_right (zip_with f) (repeat u n) vs) = n.
Proof.
  intros L vs F. induction F as [|v vs Lv F [IH1 IH2]]; cbn [fold_right map].
  - split; [apply nth_repeat|apply repeat_length].
  - split; [rewrite zip_with_nth, IH1 by (try rewrite IH2; lia); reflexivity|]. rewrite zip_with_length, IH2, Lv. lia.
Qed.

(** *** Results of all elements *)
Lemma collect_total {E X Y} (f : X -> res E Y) l (P : X -> Y -> Prop) : (forall x, In x l -> exists y, f x = Ok y /\ P x y) -> exists ys, collect f l = Ok ys /\ Forall2 P l ys.
Proof.
  induction l as [|x l IH]; intros H; cbn [collect]; [exists []; split; [reflexivity|constructor]|]. destruct (H x (or_introl eq_refl)) as (y & E1 & Py). destruct IH as (ys & E2 & F); [intros z Hz; apply H; right; exact Hz|].
  rewrite E1. cbn [bind]. rewrite E2. cbn [bind]. exists (y :: ys). split; [reflexivity|]. constructor; assumption.
Qed.
Lemma collect_ok {E X Y} (f : X -> res E Y) l : forall ys, collect f l = Ok ys -> Forall2 (fun x y => f x = Ok y) l ys.
Proof.
  induction l as [|x l IH]; intros ys H; cbn [collect] in H; [injection H as <-; constructor|]. destruct (f x) as [y| |] eqn:E1; try discriminate. cbn [bind] in H. destruct (collect f l) as [ys'| |]; try discriminate. cbn [bind] in H. injection H as <-. constructor; [exact E1|apply IH; reflexivity].
Qed.
