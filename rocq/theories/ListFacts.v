(** List facts missing from the standard library of this release. *)
From Verif Require Import Base.

Lemma nth_error_ext {A} : forall l l' : list A, (forall i, nth_error l i = nth_error l' i) -> l = l'.
Proof.
  induction l as [|a l IH]; intros [|b l'] H; [reflexivity|specialize (H 0); discriminate|specialize (H 0); discriminate|].
  pose proof (H 0) as H0; cbn in H0; injection H0 as ->. f_equal. apply IH. intros i; exact (H (S i)).
Qed.

Lemma nth_error_skipn {A} (l : list A) : forall n i, nth_error (skipn n l) i = nth_error l (n + i).
Proof.
  induction l as [|a l IH]; intros [|n] i; cbn; try reflexivity.
  - destruct i; reflexivity.
  - apply IH.
Qed.

Lemma nth_error_firstn {A} (l : list A) : forall n i,
  nth_error (firstn n l) i = if i <? n then nth_error l i else None.
Proof.
  induction l as [|a l IH]; intros [|n] [|i]; cbn [firstn nth_error]; try reflexivity.
  - destruct (S i <? S n); reflexivity.
  - rewrite IH. reflexivity.
Qed.

Lemma nth_error_repeat_lt {A} (a : A) n k : k < n -> nth_error (repeat a n) k = Some a.
Proof. revert k; induction n as [|n IH]; intros [|k] H; cbn; try lia; auto. apply IH; lia. Qed.

Lemma last_In {A} (l : list A) d : l = [] /\ last l d = d \/ In (last l d) l.
Proof.
  induction l as [|x [|y l] IH]; [left; auto|right; cbn; auto|].
  right; destruct IH as [[E _]|IH]; [discriminate|]. right; exact IH.
Qed.

Lemma app_split_len {A} (a b c d : list A) : a ++ b = c ++ d -> length a = length c -> a = c /\ b = d.
Proof.
  revert c; induction a as [|x a IH]; intros [|y c] H Hl; cbn in *; try lia; auto.
  injection H as -> H. destruct (IH c H ltac:(lia)) as [-> ->]; auto.
Qed.

Lemma app_prefix_cmp {A} (a b c d : list A) :
  a ++ b = c ++ d -> length a <= length c -> exists m, c = a ++ m /\ b = m ++ d.
Proof.
  revert c; induction a as [|x a IH]; intros c H Hl; cbn [app] in *; [exists c; auto|].
  destruct c as [|y c]; cbn in Hl; [lia|]. cbn [app] in H; injection H as -> H.
  destruct (IH c H ltac:(lia)) as (m & -> & ->); exists m; auto.
Qed.

Lemma Forall2_impl {A B} (P Q : A -> B -> Prop) l l' : (forall a b, P a b -> Q a b) -> Forall2 P l l' -> Forall2 Q l l'.
Proof. intros H. induction 1; constructor; auto. Qed.

Lemma skipn_map' {A B} (f : A -> B) n l : map f (skipn n l) = skipn n (map f l).
Proof. revert l; induction n as [|n IH]; intros [|a l]; cbn; auto. Qed.

Lemma exists_last_or_nil {A} (l : list A) : l = [] \/ exists l' a, l = l' ++ [a].
Proof. destruct l as [|a l]; [auto|]. right. destruct (@exists_last A (a :: l)) as (l' & b & E); [discriminate|eauto]. Qed.
