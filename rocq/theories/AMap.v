(** Finite maps as association lists, standing for the hash maps of the code
    ([AHashMap], [HashMap]): [aset] is [insert], [aget] is [get].  The order of
    the list stands for the (unspecified) iteration order of the hash map. *)
From Verif Require Import Base.

Section amap.
  Context {K V : Type} (eqb : K -> K -> bool).

  Fixpoint aget (k : K) (m : list (K * V)) : option V :=
    match m with
    | [] => None
    | (k', v) :: m' => if eqb k k' then Some v else aget k m'
    end.

  Fixpoint aset (k : K) (v : V) (m : list (K * V)) : list (K * V) :=
    match m with
    | [] => [(k, v)]
    | (k', v') :: m' => if eqb k k' then (k', v) :: m' else (k', v') :: aset k v m'
    end.

  Definition amem (k : K) (m : list (K * V)) : bool := match aget k m with Some _ => true | None => false end.

  Hypothesis eqb_eq : forall a b, eqb a b = true <-> a = b.

  Lemma eqb_refl' k : eqb k k = true.
  Proof. apply eqb_eq. reflexivity. Qed.

  Lemma eqb_neq' a b : a <> b -> eqb a b = false.
  Proof. intros H. destruct (eqb a b) eqn:E; [|reflexivity]. apply eqb_eq in E. contradiction. Qed.

  Lemma aget_aset_same k v m : aget k (aset k v m) = Some v.
  Proof.
    induction m as [|[k' v'] m IH]; cbn; [rewrite eqb_refl'; reflexivity|].
    destruct (eqb k k') eqn:E; cbn; rewrite E; auto.
  Qed.

  Lemma aget_aset_other k k' v m : k <> k' -> aget k (aset k' v m) = aget k m.
  Proof.
    intros N. induction m as [|[k2 v2] m IH]; cbn; [rewrite eqb_neq' by exact N; reflexivity|].
    destruct (eqb k' k2) eqn:E; cbn.
    - apply eqb_eq in E. subst. rewrite eqb_neq' by exact N. reflexivity.
    - rewrite IH. reflexivity.
  Qed.

  Lemma aget_aset k k' v m : aget k (aset k' v m) = if eqb k k' then Some v else aget k m.
  Proof.
    destruct (eqb k k') eqn:E.
    - apply eqb_eq in E. subst. apply aget_aset_same.
    - apply aget_aset_other. intros ->. rewrite eqb_refl' in E. discriminate.
  Qed.

  Lemma aget_In k v m : aget k m = Some v -> In (k, v) m.
  Proof.
    induction m as [|[k' v'] m IH]; cbn; [discriminate|]. destruct (eqb k k') eqn:E.
    - apply eqb_eq in E. subst. intros H. injection H as ->. auto.
    - auto.
  Qed.

  Lemma In_aget k v m : NoDup (map fst m) -> In (k, v) m -> aget k m = Some v.
  Proof.
    induction m as [|[k' v'] m IH]; intros D H; [destruct H|]. cbn in *. inversion D as [|? ? D1 D2]; subst.
    destruct H as [H|H]; [injection H as -> ->; rewrite eqb_refl'; reflexivity|].
    rewrite eqb_neq'; [auto|]. intros ->. apply D1. change k' with (fst (k', v)). apply in_map. exact H.
  Qed.

  Lemma aget_none k m : aget k m = None <-> ~ In k (map fst m).
  Proof.
    induction m as [|[k' v'] m IH]; cbn; [tauto|]. destruct (eqb k k') eqn:E.
    - apply eqb_eq in E. subst. split; [discriminate|tauto].
    - rewrite IH. split; [|tauto]. intros H [->|H']; [rewrite eqb_refl' in E; discriminate|tauto].
  Qed.

  Lemma aget_some_key k m : In k (map fst m) -> exists v, aget k m = Some v.
  Proof.
    intros H. destruct (aget k m) eqn:E; [eauto|]. apply aget_none in E. contradiction.
  Qed.

  Lemma aset_keys k v m : map fst (aset k v m) = if amem k m then map fst m else map fst m ++ [k].
  Proof.
    unfold amem. induction m as [|[k' v'] m IH]; cbn; [reflexivity|]. destruct (eqb k k') eqn:E; cbn; [reflexivity|].
    rewrite IH. destruct (aget k m); reflexivity.
  Qed.

  Lemma aset_keys_in k v m x : In x (map fst (aset k v m)) <-> x = k \/ In x (map fst m).
  Proof.
    rewrite aset_keys. unfold amem. destruct (aget k m) eqn:E.
    - apply aget_In in E. apply (in_map fst) in E. cbn in E. split; [auto|intros [->|H]; auto].
    - rewrite in_app_iff. cbn. split; [intros [H|[H|[]]]; auto|intros [H|H]; auto].
  Qed.

  Lemma aset_nodup k v m : NoDup (map fst m) -> NoDup (map fst (aset k v m)).
  Proof.
    intros D. rewrite aset_keys. unfold amem. destruct (aget k m) eqn:E; [exact D|]. apply aget_none in E.
    induction (map fst m) as [|x l IH]; [repeat constructor; auto|]. inversion D as [|? ? D1 D2]; subst. cbn. constructor.
    - rewrite in_app_iff. intros [H|[H|[]]]; [contradiction|subst; apply E; left; reflexivity].
    - apply IH; [exact D2|]. intros H. apply E. right. exact H.
  Qed.

  Lemma aset_len k v m : length (aset k v m) = length m + (if amem k m then 0 else 1).
  Proof.
    rewrite <- (map_length fst), aset_keys. unfold amem. destruct (aget k m).
    - rewrite map_length. lia.
    - rewrite app_length, map_length. reflexivity.
  Qed.

  Lemma aset_same k v m : aget k m = Some v -> aset k v m = m.
  Proof.
    induction m as [|[k' v'] m IH]; cbn; [discriminate|]. destruct (eqb k k') eqn:E.
    - intros H. injection H as ->. reflexivity.
    - intros H. f_equal. auto.
  Qed.
End amap.
