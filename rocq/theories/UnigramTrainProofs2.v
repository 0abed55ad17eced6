(** Which pieces pruning keeps. *)
From Coq Require Import Permutation Sorted.
From Verif Require Import Base StrBytes ListFacts AMap Utf8 EncodingModel BpeModel UnigramModel MarginalModel TrainersModel UnigramTrainModel UnigramTrainSpec UnigramTrainProofs.

Lemma firstn_S_nth {X} (l : list X) k x : nth_error l k = Some x -> firstn (S k) l = firstn k l ++ [x].
Proof.
  revert l. induction k as [|k IH]; intros [|y l] E; cbn in E; try discriminate; [injection E as ->; reflexivity|]. rewrite (firstn_cons (S k)), (firstn_cons k), (IH l E). reflexivity.
Qed.

Lemma Forall2_len {X Y} (R : X -> Y -> Prop) a b : Forall2 R a b -> length a = length b.
Proof. induction 1; cbn; congruence. Qed.

Lemma nodup_front {X} (a b : list X) : NoDup (a ++ b) -> NoDup a.
Proof. induction a as [|x a IH]; cbn; intros H; [constructor|]. inversion H as [|? ? NI ND]; subst. constructor; [|apply IH; exact ND]. intros I. apply NI. apply in_or_app. auto. Qed.

Section pruning.
  Context {W : Type} (A : arith W) (T : tarith W).
  Notation at_ l := (fun i x => nth_error l i = Some x).

  Lemma sift_picks wc vsum sum freq inverted alts (all : list (str * W)) : forall pieces id kept cands kept' cands', all = firstn id all ++ pieces -> id <= length all ->
    sift A T wc vsum sum freq inverted alts id pieces kept cands = Ok (kept', cands') ->
    exists is ks cs, kept' = kept ++ ks /\ cands' = cands ++ cs /\ Forall2 (at_ all) is ks /\ NoDup (is ++ map fst cs) /\ Forall (fun i => 0 < i /\ id <= i < length all) (is ++ map fst cs) /\
      (forall i p, id <= i -> nth_error all i = Some p -> nth_error alts i = Some (true, []) -> 0 < i -> In i is) /\
      (forall i, id <= i -> In i is -> exists ka, nth_error alts i = Some ka /\ snd ka = []) /\
      (forall i loss, In (i, loss) cs -> exists ka u fid, nth_error alts i = Some ka /\ snd ka <> [] /\ nth_error inverted i = Some u /\ nth_error freq i = Some fid /\ loss_of A T wc vsum sum freq u fid (snd ka) = Ok (Some loss)) /\
      (forall i, id <= i < length all -> 0 < i -> In i is \/ In i (map fst cs) \/ (exists fid, nth_error freq i = Some fid /\ ta_is_zero T fid = true) \/
         exists ka u fid, nth_error alts i = Some ka /\ nth_error inverted i = Some u /\ nth_error freq i = Some fid /\ loss_of A T wc vsum sum freq u fid (snd ka) = Ok None).
  Proof.
    induction pieces as [|p pieces IH]; intros id kept cands kept' cands' EA LI H; cbn [sift] in H.
    - injection H as <- <-. exists [], [], []. rewrite !app_nil_r. split; [reflexivity|]. split; [reflexivity|]. split; [constructor|]. split; [constructor|]. split; [constructor|].
      pose proof (f_equal (@length _) EA) as L. rewrite app_nil_r, firstn_length in L. split; [|split; [intros i _ []|split; [intros i loss []|intros; lia]]]. intros i q Li E _ _. exfalso. assert (i < length all) by (apply nth_error_Some; congruence). lia.
    - assert (EP : nth_error all id = Some p).
      { rewrite EA. rewrite nth_error_app2 by (rewrite firstn_length; lia). rewrite firstn_length. replace (id - Nat.min id (length all)) with 0 by lia. reflexivity. }
      assert (LT : id < length all) by (apply nth_error_Some; congruence).
      assert (EA' : all = firstn (S id) all ++ pieces).
      { rewrite (firstn_S_nth all id p EP), <- app_assoc. exact EA. }
      assert (SKIP : (id = 0 \/ exists ka, nth_error alts id = Some ka /\ (fst ka = false \/ snd ka <> [])) ->
        (id = 0 \/ (exists fid, nth_error freq id = Some fid /\ ta_is_zero T fid = true) \/ exists ka u fid, nth_error alts id = Some ka /\ nth_error inverted id = Some u /\ nth_error freq id = Some fid /\ loss_of A T wc vsum sum freq u fid (snd ka) = Ok None) -> sift A T wc vsum sum freq inverted alts (S id) pieces kept cands = Ok (kept', cands') ->
        exists is ks cs, kept' = kept ++ ks /\ cands' = cands ++ cs /\ Forall2 (at_ all) is ks /\ NoDup (is ++ map fst cs) /\ Forall (fun i => 0 < i /\ id <= i < length all) (is ++ map fst cs) /\
          (forall i p, id <= i -> nth_error all i = Some p -> nth_error alts i = Some (true, []) -> 0 < i -> In i is) /\
          (forall i, id <= i -> In i is -> exists ka, nth_error alts i = Some ka /\ snd ka = []) /\
          (forall i loss, In (i, loss) cs -> exists ka u fid, nth_error alts i = Some ka /\ snd ka <> [] /\ nth_error inverted i = Some u /\ nth_error freq i = Some fid /\ loss_of A T wc vsum sum freq u fid (snd ka) = Ok (Some loss)) /\
      (forall i, id <= i < length all -> 0 < i -> In i is \/ In i (map fst cs) \/ (exists fid, nth_error freq i = Some fid /\ ta_is_zero T fid = true) \/
         exists ka u fid, nth_error alts i = Some ka /\ nth_error inverted i = Some u /\ nth_error freq i = Some fid /\ loss_of A T wc vsum sum freq u fid (snd ka) = Ok None)).
      { intros SK WHY H'. destruct (IH _ _ _ _ _ EA' LT H') as (is & ks & cs & E1 & E2 & F & ND & B & K & KA & C & D). exists is, ks, cs. repeat (split; [assumption|]). split; [|split; [|split; [|split; [exact C|]]]].
        - eapply Forall_impl; [|exact B]. cbn. intros; lia.
        - intros i q Li E Ea P. destruct (Nat.eq_dec i id) as [->|]; [|apply (K i q); auto; lia]. exfalso. destruct SK as [->|(ka & E3 & [X|X])]; [lia|rewrite Ea in E3; injection E3 as <-; discriminate|rewrite Ea in E3; injection E3 as <-; apply X; reflexivity].
        - intros i Li Ii. apply KA; [|exact Ii]. rewrite Forall_forall in B. specialize (B i ltac:(apply in_or_app; auto)). lia.
        - intros i Li P. destruct (Nat.eq_dec i id) as [->|]; [|apply D; lia]. destruct WHY as [->|WHY]; [lia|]. tauto. }
      destruct (Nat.eqb_spec id 0) as [E0|N0]; [apply SKIP; auto|]. destruct (nth_error freq id) as [fid|] eqn:EF; [|discriminate]. cbn [of_option bind] in H. destruct (nth_error alts id) as [ka|] eqn:EK; [|discriminate]. cbn [of_option bind] in H.
      destruct (ta_is_zero T fid && negb (fst ka)) eqn:EZ.
      { apply SKIP; [| |exact H]; [|right; left; exists fid; apply andb_true_iff in EZ; tauto]. right. exists ka. split; [reflexivity|]. left. apply andb_true_iff in EZ. destruct (fst ka); [destruct EZ; discriminate|reflexivity]. }
      destruct (is_nil (snd ka)) eqn:EN.
      { destruct (IH _ _ _ _ _ EA' LT H) as (is & ks & cs & E1 & E2 & F & ND & B & K & KA & C & D). exists (id :: is), (p :: ks), cs. split; [rewrite E1, <- app_assoc; reflexivity|]. split; [exact E2|].
        split; [constructor; assumption|]. split; [|split; [|split; [|split; [|split; [exact C|]]]]].
        - cbn. constructor; [|exact ND]. intros I. rewrite Forall_forall in B. apply B in I. lia.
        - cbn. constructor; [lia|]. eapply Forall_impl; [|exact B]. cbn. intros; lia.
        - intros i q Li E Ea P. destruct (Nat.eq_dec i id) as [->|]; [left; reflexivity|right; apply (K i q); auto; lia].
        - intros i Li [<-|Ii]; [exists ka; split; [exact EK|]; destruct (snd ka); [reflexivity|discriminate]|]. apply KA; [|exact Ii]. rewrite Forall_forall in B. specialize (B i ltac:(apply in_or_app; auto)). lia.
        - intros i Li P. destruct (Nat.eq_dec i id) as [->|]; [left; left; reflexivity|]. destruct (D i ltac:(lia) P) as [X|X]; [left; right; exact X|right; exact X]. }
      destruct (nth_error inverted id) as [u|] eqn:EU; [|discriminate]. cbn [of_option bind] in H. destruct (loss_of A T wc vsum sum freq u fid (snd ka)) as [[loss|]| |] eqn:EL; try discriminate; cbn [bind] in H.
      2:{ apply SKIP; [| |exact H]; [|right; right; exists ka, u, fid; auto]. right. exists ka. split; [reflexivity|]. right. intros X. rewrite X in EN. discriminate. }
      destruct (IH _ _ _ _ _ EA' LT H) as (is & ks & cs & E1 & E2 & F & ND & B & K & KA & C & D). exists is, ks, ((id, loss) :: cs). split; [exact E1|]. split; [rewrite E2, <- app_assoc; reflexivity|].
      split; [exact F|]. split; [|split; [|split; [|split; [|split]]]].
      + apply Permutation_NoDup with (id :: is ++ map fst cs); [apply Permutation_middle|]. constructor; [|exact ND]. intros I. rewrite Forall_forall in B. apply B in I. lia.
      + apply (Permutation_Forall (Permutation_middle is (map fst cs) id)). constructor; [lia|]. eapply Forall_impl; [|exact B]. cbn. intros; lia.
      + intros i q Li E Ea P. destruct (Nat.eq_dec i id) as [->|]; [|apply (K i q); auto; lia]. rewrite EK in Ea. injection Ea as ->. discriminate.
      + intros i Li Ii. apply KA; [|exact Ii]. rewrite Forall_forall in B. specialize (B i ltac:(apply in_or_app; auto)). lia.
      + intros i l [E|I]; [injection E as <- <-; exists ka, u, fid; repeat (split; [assumption|]); split; [intros X; rewrite X in EN; discriminate|auto]|apply C; exact I].
      + intros i Li P. destruct (Nat.eq_dec i id) as [->|]; [right; left; left; reflexivity|]. destruct (D i ltac:(lia) P) as [X|[X|X]]; [left; exact X|right; left; right; exact X|right; right; exact X].
  Qed.

  Lemma refill_picks size (all : list (str * W)) : forall (cands : list (nat * W)) new new', refill size all cands new = Ok new' ->
    exists k ks, k <= length cands /\ new' = new ++ ks /\ Forall2 (at_ all) (map fst (firstn k cands)) ks /\ (k < length cands -> length new' = size) /\ (0 < k -> length new <> size) /\ (0 < k -> length new < size -> length new' <= size).
  Proof.
    induction cands as [|[id l] cands IH]; intros new new' H; cbn [refill] in H.
    - injection H as <-. exists 0, []. rewrite app_nil_r. cbn. split; [lia|]. split; [reflexivity|]. split; [constructor|]. lia.
    - destruct (Nat.eqb_spec (length new) size) as [E|E].
      + injection H as <-. exists 0, []. rewrite app_nil_r. cbn. split; [lia|]. split; [reflexivity|]. split; [constructor|]. lia.
      + destruct (nth_error all id) as [p|] eqn:EP; [|discriminate]. cbn [of_option bind] in H. destruct (IH _ _ H) as (k & ks & LK & E1 & F & L1 & L2 & L3). exists (S k), (p :: ks). cbn [length firstn map fst].
        split; [lia|]. split; [rewrite E1, <- app_assoc; reflexivity|]. split; [constructor; assumption|]. split; [intros; apply L1; lia|]. split; [intros; exact E|]. intros _ LT. rewrite app_length in *. cbn [length] in *.
        destruct k as [|k]; [|destruct (Nat.eq_dec (length new + 1) size); [exfalso; apply L2; lia|apply L3; lia]]. apply Forall2_len in F. cbn in F. assert (ks = []) by (destruct ks; [reflexivity|cbn in F; lia]). subst ks. rewrite E1, app_length. cbn. rewrite app_length. cbn. lia.
  Qed.

  Lemma Forall2_app_at {X} (l : list X) is js xs ys : Forall2 (at_ l) is xs -> Forall2 (at_ l) js ys -> Forall2 (at_ l) (is ++ js) (xs ++ ys).
  Proof. intros H. induction H; cbn; [auto|]. intros; constructor; auto. Qed.

  Lemma firstn_nodup {X} (l : list X) k : NoDup l -> NoDup (firstn k l).
  Proof. intros H. rewrite <- (firstn_skipn k l) in H. apply nodup_front in H. exact H. Qed.

  (** *** The whole of [prune_sentence_pieces] *)
  Context (threads : nat) (plan : nat -> rtree) (fuel : nat) (pop : list (hypothesis W) -> option (hypothesis W * list (hypothesis W))) (vocab_size : nat).

  Theorem prune_shape step m pieces wc new : prune_pieces A T threads plan fuel pop vocab_size step m pieces wc = Ok new ->
    exists alts vsum freq inverted keep losses k,
      all_alternatives A fuel pop m pieces = Ok alts /\ uses A T threads plan step m (length pieces) wc = Ok (vsum, (freq, inverted)) /\
      picked pieces (0 :: keep ++ map fst (firstn k (sort_by (fun a b => a_gtb A (snd a) (snd b)) losses))) new /\
      NoDup (0 :: keep ++ map fst losses) /\
      (k < length losses -> length new = Nat.max ((vocab_size * 11) / 10) (ta_shrink T (length pieces))) /\
      (1 + length keep <= Nat.max ((vocab_size * 11) / 10) (ta_shrink T (length pieces)) -> length new <= Nat.max ((vocab_size * 11) / 10) (ta_shrink T (length pieces))) /\
      k <= length losses /\
      (forall i p, nth_error pieces i = Some p -> nth_error alts i = Some (true, []) -> 0 < i -> In i keep) /\
      (forall i, In i keep -> exists ka, nth_error alts i = Some ka /\ snd ka = []) /\
      (forall i loss, In (i, loss) losses -> exists ka u fid, nth_error alts i = Some ka /\ snd ka <> [] /\ nth_error inverted i = Some u /\ nth_error freq i = Some fid /\
      loss_of A T wc vsum (fold_left (a_add A) freq (a_zero A)) freq u fid (snd ka) = Ok (Some loss)) /\
      (forall i, 0 < i < length pieces -> In i keep \/ In i (map fst losses) \/ (exists fid, nth_error freq i = Some fid /\ ta_is_zero T fid = true) \/
         exists ka u fid, nth_error alts i = Some ka /\ nth_error inverted i = Some u /\ nth_error freq i = Some fid /\ loss_of A T wc vsum (fold_left (a_add A) freq (a_zero A)) freq u fid (snd ka) = Ok None).
  Proof.
    intros H. unfold prune_pieces in H. destruct (all_alternatives A fuel pop m pieces) as [alts| |] eqn:EA; try discriminate. cbn [bind] in H.
    destruct (uses A T threads plan step m (length pieces) wc) as [[vsum [freq inverted]]| |] eqn:EU; try discriminate. cbn [bind] in H. set (sum := fold_left (a_add A) freq (a_zero A)) in *.
    destruct (nth_error pieces 0) as [p0|] eqn:E0; [|discriminate]. cbn [of_option bind] in H. destruct (sift A T wc vsum sum freq inverted alts 0 pieces [p0] []) as [[kept losses]| |] eqn:ES; try discriminate. cbn [bind fst snd] in H.
    destruct (sift_picks wc vsum sum freq inverted alts pieces pieces 0 [p0] [] kept losses eq_refl ltac:(lia) ES) as (is & ks & cs & E1 & E2 & F & ND & B & K & KA & C & D). cbn in E2. subst cs.
    destruct (refill_picks _ _ _ _ _ H) as (k & ks2 & LK & E3 & F2 & L1 & L2 & L3).
    pose proof (sort_by_perm (fun a b => a_gtb A (snd a) (snd b)) losses) as PM. set (ranked := sort_by _ losses) in *. pose proof (Permutation_length PM) as LL.
    assert (ND0 : NoDup (0 :: is ++ map fst losses)). { constructor; [|exact ND]. intros X. rewrite Forall_forall in B. apply B in X. lia. }
    exists alts, vsum, freq, inverted, is, losses, k. split; [reflexivity|]. split; [reflexivity|]. split; [|split; [exact ND0|split; [|split; [|split; [|split; [|split; [|split]]]]]]].
    - split.
      + assert (P2 : Permutation (0 :: is ++ map fst ranked) (0 :: is ++ map fst losses)) by (constructor; apply Permutation_app_head, Permutation_map; exact PM).
        apply (Permutation_NoDup (Permutation_sym P2)) in ND0. rewrite <- (firstn_skipn k ranked), map_app in ND0. change (0 :: is ++ map fst (firstn k ranked) ++ map fst (skipn k ranked)) with ((0 :: is) ++ map fst (firstn k ranked) ++ map fst (skipn k ranked)) in ND0.
        rewrite app_assoc in ND0. apply nodup_front in ND0. exact ND0.
      + rewrite E3, E1. cbn [app]. constructor; [exact E0|]. apply Forall2_app_at; assumption.
    - intros L. rewrite <- LL in L. apply L1. exact L.
    - assert (LN : length kept = 1 + length is) by (rewrite E1; cbn [app length]; rewrite <- (Forall2_len _ _ _ F); reflexivity). rewrite <- LN. intros L. destruct k as [|k].
      + cbn [firstn map] in F2. inversion F2; subst ks2. rewrite E3, app_nil_r. exact L.
      + pose proof (L2 ltac:(lia)). apply L3; lia.
    - lia.
    - intros i p E Ea P. apply (K i p); auto. lia.
    - intros i Ii. apply KA; [lia|exact Ii].
    - exact C.
    - intros i Hi. apply D; lia.
  Qed.
End pruning.
