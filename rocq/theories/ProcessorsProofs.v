(** Lemmas about post-processing: merging lists of encodings with overflowing
    parts, and ownership of positions. *)
From Verif Require Import Base AMap ListFacts EncodingModel EncodingSpec EncodingProofs EncodingProofs2
  EncodingProofs3 ByteLevelModel ProcessorsModel ProcessorsSpec.

(** ** Nodes of merged encodings *)

Definition flat (e : encoding) : encoding := set_overflowing e [].

Lemma flat_merge_main g a b o : flat (merge_main g a b o) = merge_with g (flat a) (flat b).
Proof. rewrite merge_with_unfold. reflexivity. Qed.

Lemma flat_merge_with g a b : flat (merge_with g a b) = merge_with g (flat a) (flat b).
Proof. rewrite (merge_with_unfold g a b). apply flat_merge_main. Qed.

Lemma node_trans a b c : node a b -> node b c -> node a c.
Proof. induction 1; intros H1; [exact H1|]. eapply node_over; eauto. Qed.

Lemma node_flat e x : node (flat e) x -> x = flat e.
Proof. intros H. inversion H; subst; [reflexivity|]. contradiction. Qed.

Lemma parallel_node e x : parallel e -> node e x -> same_lengths x.
Proof.
  intros He H. revert He. induction H as [e|e o x Hin H IH]; intros He; destruct He as [H1 H2]; [exact H1|].
  apply IH. rewrite Forall_forall in H2. apply H2, Hin.
Qed.

Lemma node_parallel e : (forall x, node e x -> same_lengths x) -> parallel e.
Proof.
  induction e as [e IH] using enc_ind'. intros H. constructor; [apply H; constructor|].
  rewrite Forall_forall in *. intros o Ho. apply IH; [exact Ho|]. intros x Hx. apply H.
  eapply node_over; eassumption.
Qed.

Lemma merge_with_node g a : forall b x,
  node (merge_with g a b) x ->
  exists a' b' o, node a a' /\ node b b' /\ x = merge_main g a' b' o.
Proof.
  induction a as [a IHa] using enc_ind'. intros b.
  induction b as [b IHb] using enc_ind'. intros x Hx.
  rewrite Forall_forall in IHa, IHb.
  inversion Hx as [Ex|o x' Hin Hx' Ex]; subst.
  - rewrite merge_with_unfold. eexists a, b, _. repeat split; constructor.
  - rewrite overflowing_merge_with in Hin. apply in_app_or in Hin. destruct Hin as [Hin|Hin].
    + apply in_flat_map in Hin. destruct Hin as (y & Hy & [<-|Hin]).
      * destruct (IHa y Hy b x Hx') as (a' & b' & o' & H1 & H2 & ->).
        exists a', b', o'. repeat split; [eapply node_over; eassumption|assumption].
      * apply in_map_iff in Hin. destruct Hin as (z & <- & Hz).
        destruct (IHa y Hy z x Hx') as (a' & b' & o' & H1 & H2 & ->).
        exists a', b', o'. repeat split; eapply node_over; eassumption.
    + apply in_map_iff in Hin. destruct Hin as (z & <- & Hz).
      destruct (IHb z Hz x Hx') as (a' & b' & o' & H1 & H2 & ->).
      exists a', b', o'. repeat split; [assumption|eapply node_over; eassumption].
Qed.

Lemma merge_from_node g l : forall acc x,
  node (fold_left (merge_with g) l acc) x ->
  exists a xs, node acc a /\ Forall2 node l xs /\
               flat x = fold_left (merge_with g) (map flat xs) (flat a).
Proof.
  induction l as [|y l IH]; intros acc x Hx; cbn [fold_left] in Hx.
  - exists x, []. repeat split; [exact Hx|constructor].
  - destruct (IH _ _ Hx) as (m & xs & Hm & HF & Heq).
    destruct (merge_with_node _ _ _ _ Hm) as (a & b & o & Ha & Hb & ->).
    exists a, (b :: xs). repeat split; [exact Ha|constructor; assumption|].
    cbn [map fold_left]. rewrite <- (flat_merge_main g a b o). exact Heq.
Qed.

Lemma merge_node g l x :
  node (merge g l) x -> exists xs, Forall2 node l xs /\ flat x = merge g (map flat xs).
Proof.
  intros H. destruct (merge_from_node g l _ _ H) as (a & xs & Ha & HF & E).
  exists xs. split; [exact HF|]. rewrite E.
  inversion Ha; subst; [reflexivity|contradiction].
Qed.

Lemma flat_merge g l : flat (merge g l) = merge g (map flat l).
Proof.
  unfold merge. change empty_enc with (flat empty_enc) at 2. generalize empty_enc.
  induction l as [|y l IH]; intros acc; cbn [fold_left map]; [reflexivity|].
  rewrite IH, flat_merge_with. reflexivity.
Qed.

(** ** Ownership of positions *)

(** [x] shows the cells [cs], and its recorded ranges have the keys [ks]. *)
Definition pres (x : encoding) (cs : list (option nat * row)) (ks : list nat) : Prop :=
  same_lengths x /\ rows x = map snd cs /\ map fst (sequence_ranges x) = ks /\
  forall i s, (exists r, In (s, r) (sequence_ranges x) /\ fst r <= i < snd r)
              <-> nth_error (map fst cs) i = Some (Some s).

Lemma same_lengths_flat x : same_lengths (flat x) <-> same_lengths x.
Proof. split; intros H; exact H. Qed.

Lemma pres_flat x cs ks : pres (flat x) cs ks <-> pres x cs ks.
Proof. split; intros H; exact H. Qed.

Lemma pres_len x cs ks : pres x cs ks -> enc_len x = length cs.
Proof.
  intros (H1 & H2 & _). rewrite <- (rows_length x H1), H2. apply map_length.
Qed.

Lemma pres_shows x cs ks : pres x cs ks -> ks <> [] -> shows x cs.
Proof.
  intros P N. pose proof (pres_len _ _ _ P) as HL. destruct P as (H1 & H2 & H3 & H4).
  split; [exact H2|]. intros i. unfold token_to_sequence.
  assert (Ht : forall s, (exists r, In (s, r) (sequence_ranges x) /\ fst r <= i < snd r) <->
                         exists rr, nth_error cs i = Some (Some s, rr)).
  { intros s. rewrite H4, nth_error_map. destruct (nth_error cs i) as [[o rr]|]; cbn; split.
    - intros E. injection E as ->. eauto.
    - intros (r & E). injection E as -> ->. reflexivity.
    - discriminate.
    - intros (r & E). discriminate. }
  destruct (Nat.ltb_spec (enc_len x) i) as [Hlt|Hge].
  { assert (nth_error cs i = None) as -> by (apply nth_error_None; lia). reflexivity. }
  destruct (sequence_ranges x) as [|kr m] eqn:Em; [cbn in H3; congruence|].
  destruct (find_range i (kr :: m)) as [s|] eqn:F.
  - destruct (proj1 (Ht s)) as (rr & ->); [|reflexivity].
    apply find_range_some in F. exact F.
  - destruct (nth_error cs i) as [[[s|] rr]|] eqn:Ei; [|reflexivity|reflexivity].
    destruct (proj2 (Ht s)) as (r & Hr1 & Hr2); [eauto|].
    exfalso. eapply find_range_none; eassumption.
Qed.

Lemma pres_nil : pres empty_enc [] [].
Proof.
  split; [repeat split|]. split; [reflexivity|]. split; [reflexivity|]. intros i s; cbn. split.
  - intros (r & [] & _).
  - destruct i; discriminate.
Qed.

Lemma pres_merge a b ca cb ka kb :
  pres a ca ka -> pres b cb kb -> NoDup (ka ++ kb) ->
  pres (merge_with false a b) (ca ++ cb) (ka ++ kb).
Proof.
  intros Pa Pb ND. pose proof (pres_len _ _ _ Pa) as La.
  destruct Pa as (A1 & A2 & A3 & A4), Pb as (B1 & B2 & B3 & B4).
  assert (Er : sequence_ranges (merge_with false a b) =
    sequence_ranges a ++ map (fun '(s, (p, q)) => (s, (enc_len a + p, enc_len a + q))) (sequence_ranges b)).
  { rewrite merge_with_unfold. cbn [sequence_ranges merge_main]. apply merge_ranges_disjoint.
    rewrite A3, B3. exact ND. }
  split; [|split; [|split]].
  - rewrite merge_with_unfold. apply same_lengths_merge_main; assumption.
  - rewrite rows_merge_with by exact A1. unfold juxtapose. rewrite A2, B2, map_app. reflexivity.
  - rewrite Er, map_app, A3. f_equal. rewrite map_map, <- B3. apply map_ext. intros [s [p q]]. reflexivity.
  - intros i s. rewrite Er, map_app.
    assert (Hl : length (map fst ca) = enc_len a) by (rewrite map_length; lia).
    split.
    + intros (r & Hin & Hr). apply in_app_or in Hin. destruct Hin as [Hin|Hin].
      * assert (E : nth_error (map fst ca) i = Some (Some s)) by (apply A4; eauto).
        rewrite nth_error_app1; [exact E|]. apply nth_error_Some. congruence.
      * apply in_map_iff in Hin. destruct Hin as ([s' [p q]] & E & Hin). injection E as -> <-. cbn in Hr.
        rewrite nth_error_app2 by lia. apply B4. exists (p, q). split; [exact Hin|]. cbn. lia.
    + intros E. destruct (Nat.lt_ge_cases i (enc_len a)) as [Hlt|Hge].
      * rewrite nth_error_app1 in E by lia. apply A4 in E. destruct E as (r & H1 & H2).
        exists r. split; [apply in_or_app; left; exact H1|exact H2].
      * rewrite nth_error_app2 in E by lia. apply B4 in E. destruct E as ([p q] & H1 & H2). cbn in H2.
        exists (enc_len a + p, enc_len a + q). split; [|cbn; lia].
        apply in_or_app; right. apply in_map_iff. exists (s, (p, q)). split; [reflexivity|exact H1].
Qed.

Lemma Forall2_len {A B} (P : A -> B -> Prop) l l' : Forall2 P l l' -> length l = length l'.
Proof. induction 1; cbn; congruence. Qed.

Lemma NoDup_app_l {A} (l1 l2 : list A) : NoDup (l1 ++ l2) -> NoDup l1.
Proof.
  induction l1 as [|x l1 IH]; cbn; intros H; [constructor|]. inversion H; subst.
  constructor; [intros Hin; apply H2, in_or_app; auto|auto].
Qed.

Lemma pres_merge_list_from outs cells keys :
  length outs = length cells -> length cells = length keys ->
  (forall i x c k, nth_error outs i = Some x -> nth_error cells i = Some c ->
                   nth_error keys i = Some k -> pres x c k) ->
  forall acc ca ka, pres acc ca ka -> NoDup (ka ++ concat keys) ->
  pres (fold_left (merge_with false) outs acc) (ca ++ concat cells) (ka ++ concat keys).
Proof.
  revert cells keys. induction outs as [|x outs IH]; intros [|c cells] [|k keys] L1 L2 H acc ca ka Pa ND;
    cbn in L1, L2; try discriminate.
  - cbn. rewrite !app_nil_r. exact Pa.
  - cbn [fold_left concat]. rewrite !app_assoc. cbn [concat] in ND. rewrite app_assoc in ND.
    apply IH.
    + lia.
    + lia.
    + intros i y c' k' E1 E2 E3. apply (H (S i)); assumption.
    + apply pres_merge; [exact Pa|apply (H 0); reflexivity|]. eapply NoDup_app_l, ND.
    + exact ND.
Qed.

(** Pointwise relation between outputs and what they show. *)
Definition pres_list (outs : list encoding) (cks : list (list (option nat * row) * list nat)) : Prop :=
  Forall2 (fun x ck => pres x (fst ck) (snd ck)) outs cks.

Lemma pres_merge_list outs cks :
  pres_list outs cks -> NoDup (concat (map snd cks)) ->
  pres (merge false outs) (concat (map fst cks)) (concat (map snd cks)).
Proof.
  intros F ND. unfold merge.
  change (concat (map fst cks)) with ([] ++ concat (map fst cks)).
  change (concat (map snd cks)) with ([] ++ concat (map snd cks)).
  apply pres_merge_list_from.
  - rewrite map_length. eapply Forall2_len, F.
  - rewrite !map_length. reflexivity.
  - intros i x c k E1 E2 E3. rewrite nth_error_map in E2, E3.
    destruct (nth_error cks i) as [[c' k']|] eqn:E; [|discriminate]. injection E2 as <-. injection E3 as <-.
    clear -F E1 E. revert i E1 E. induction F as [|y ck ys cks H F IH]; intros [|i] E1 E; cbn in *; try discriminate.
    + injection E1 as ->. injection E as ->. exact H.
    + eapply IH; eassumption.
  - apply pres_nil.
  - exact ND.
Qed.

Lemma pres_list_flat xs cks : pres_list xs cks -> pres_list (map flat xs) cks.
Proof. induction 1; cbn; constructor; assumption. Qed.

(** Every node of a merged list shows the concatenation of what nodes of the
    elements show. *)
Lemma merge_node_pres outs (R : list encoding -> list (list (option nat * row) * list nat) -> Prop) x :
  node (merge false outs) x ->
  (forall xs, Forall2 node outs xs -> exists cks, pres_list xs cks /\ NoDup (concat (map snd cks)) /\ R xs cks) ->
  exists xs cks, Forall2 node outs xs /\ pres_list xs cks /\ R xs cks /\
                 pres x (concat (map fst cks)) (concat (map snd cks)).
Proof.
  intros Hx H. destruct (merge_node _ _ _ Hx) as (xs & F & E).
  destruct (H xs F) as (cks & P & ND & HR). exists xs, cks. repeat split; try assumption.
  all: assert (Q : pres (flat x) (concat (map fst cks)) (concat (map snd cks)))
    by (rewrite E; apply pres_merge_list; [apply pres_list_flat, P|exact ND]).
  all: apply Q.
Qed.
