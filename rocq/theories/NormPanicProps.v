(** C17: exactly when operations on a [NormalizedString] panic, and what they write. *)
From Coq Require Import ZArith Sorting.Sorted.
From Verif Require Import Base ListFacts StrBytes NormModel NormSpec NormProofs NormProofs2 NormProofs3 NormProofs4 NormProofs5 NormPanicSpec NormPanicProofs.

Lemma wf_ordered orig cal ca : wf_cal orig cal -> In ca cal -> fst (snd ca) <= snd (snd ca).
Proof. intros [W _] H. rewrite Forall_forall in W. destruct (W (snd ca)) as (L & _); [apply in_map; exact H|exact L]. Qed.

(** Every text that any calls give has one number of characters in front. *)
Theorem C17_front : forall s ns, norm_reachable s ns -> exists n, front ns n /\ forall n', front ns n' -> n' = n.
Proof.
  intros s ns R. destruct (reachable_wf _ _ R) as (orig & cal & sh & -> & W).
  destruct (fronted_exists cal) as (z & m & F); [intros ca H; eapply wf_ordered; eassumption|].
  exists (length z). split; [apply front_fronted; eauto|]. intros n' H. apply front_fronted in H. destruct H as (z' & m' & F' & <-).
  destruct (fronted_unique _ _ _ _ _ F F') as [-> _]. reflexivity.
Qed.
(** Histories that insert nothing in front have none. *)
Theorem C17_front_safe : forall s ns, safe_reachable s ns -> front ns 0.
Proof.
  intros s ns R. apply safe_reachable_inv in R. destruct R as (orig & cal & sh & -> & W & S). apply front_fronted. exists [], cal. split; [|reflexivity].
  constructor; [reflexivity|constructor|]. destruct cal as [|ca cal]; [exact I|]. exact (Forall_inv S).
Qed.

(** After any history, an operation panics exactly in the cases of [panics_when]. *)
Theorem C17_exact : forall s ns n op, norm_reachable s ns -> front ns n -> sensible ns op ->
  (apply_norm_op ns op = Panic <-> panics_when ns n op).
Proof.
  intros s ns n op R F S. destruct (reachable_wf _ _ R) as (orig & cal & sh & -> & W). apply front_fronted in F. destruct F as (z & m & F & <-).
  apply (step_panic orig cal z m); assumption.
Qed.

(** So a history panics exactly when one of its operations meets such a case. *)
Theorem C17_history : forall s ops, sensible_calls (nfrom s) ops ->
  (run_norm_ops (nfrom s) ops = Panic <->
   exists before op after ns n, ops = before ++ op :: after /\ run_norm_ops (nfrom s) before = Ok ns /\ front ns n /\ panics_when ns n op).
Proof.
  intros s ops. pose proof (norm_start s) as R. revert R. generalize (nfrom s). induction ops as [|op ops IH]; intros ns R S; cbn [run_norm_ops].
  - split; [discriminate|]. intros (b & op & a & x & n & E & _). destruct b; discriminate.
  - destruct S as [S1 S2]. destruct (C17_front _ _ R) as (n & F & U).
    pose proof (C17_exact _ _ _ _ R F S1) as X. destruct (apply_norm_op ns op) as [ns'|e|] eqn:E; cbn [bind].
    + assert (R' : norm_reachable s ns') by (eapply norm_step; [exact R|apply S1|exact E]).
      rewrite (IH ns' R' (S2 _ eq_refl)). split.
      * intros (b & op' & a & x & k & -> & RB & FX & PX). exists (op :: b), op', a, x, k. split; [reflexivity|]. split; [cbn [run_norm_ops]; rewrite E; exact RB|]. auto.
      * intros (b & op' & a & x & k & EO & RB & FX & PX). destruct b as [|o b].
        -- exfalso. cbn [app] in EO. assert (op' = op) by congruence. subst op'. cbn [run_norm_ops] in RB. assert (x = ns) by congruence. subst x.
           rewrite (U _ FX) in PX. apply X in PX. discriminate.
        -- cbn [app] in EO. assert (o = op) by congruence. subst o. cbn [run_norm_ops] in RB. rewrite E in RB. cbn [bind] in RB.
           exists b, op', a, x, k. split; [congruence|]. auto.
    + exfalso. pose proof (no_err_op ns op) as NO. rewrite E in NO. exact NO.
    + split; [|reflexivity]. intros _. exists [], op, ops, ns, n. split; [reflexivity|]. split; [reflexivity|]. split; [exact F|]. apply X. reflexivity.
Qed.

(** What is written by an operation that does not panic: the characters in front stay, and
    the new text comes after them.  With an empty original text it comes before the old one,
    which stays. *)
Theorem C17_text : forall s ns n op ns', norm_reachable s ns -> front ns n -> apply_norm_op ns op = Ok ns' ->
  let t := n_normalized ns in
  match op with
  | MTransform dest _ => n_normalized ns' = written ns n (map fst dest)
  | MFilter keep => n_normalized ns' = written ns n (filter keep t)
  | MMap f => n_normalized ns' = written ns n (map f t)
  | MCase f => n_normalized ns' = written ns n (flat_map f t)
  | MClear => n_normalized ns' = written ns n []
  | MStrip w l r => forall a m b, strips w l r t a m b -> n_normalized ns' = match a, b with [], [] => t | _, _ => written ns n m end
  | _ => True
  end.
Proof.
  intros s ns n op ns' R F. destruct (reachable_wf _ _ R) as (orig & cal & sh & -> & W). apply front_fronted in F. destruct F as (z & m & F & <-).
  destruct op; cbn [apply_norm_op]; intros H; cbv zeta; try exact I.
  - exact (transform_text _ _ _ _ _ _ _ _ W F H).
  - unfold n_filter in H. destruct (filter_loop keep (n_normalized (show orig cal sh)) 0 None 0) as [ts rs] eqn:E.
    rewrite (transform_text _ _ _ _ _ _ _ _ W F H). f_equal. pose proof (filter_loop_text keep (n_normalized (show orig cal sh)) 0 None 0) as X. rewrite E in X. exact X.
  - rewrite (transform_text _ _ _ _ _ _ _ _ W F H). f_equal. rewrite map_map. reflexivity.
  - rewrite (transform_text _ _ _ _ _ _ _ _ W F H). f_equal. cbn [show n_normalized]. induction (ctext cal) as [|c l IH]; [reflexivity|]. cbn [flat_map]. rewrite map_app, IH. f_equal.
    destruct (f c) as [|x y]; [reflexivity|]. cbn [first_replaces map fst]. rewrite map_map. cbn [fst]. rewrite map_id. reflexivity.
  - exact (transform_text _ _ _ _ _ _ _ _ W F H).
  - intros a x b S. pose proof (st_text _ _ _ _ _ _ _ S) as E. cbn [show n_normalized] in E, S |- *.
    destruct x as [|c x].
    + destruct (strip_all orig cal sh is_ws left right a b S) as [(-> & -> & X)|(X & Y)].
      * rewrite X in H. injection H as <-. reflexivity.
      * destruct Y as [i Y]. rewrite Y in H. rewrite (transform_text _ _ _ _ _ _ _ _ W F H). destruct a as [|a0 a]; [|reflexivity]. destruct b as [|b0 b]; [|reflexivity]. exfalso. destruct X as [X|X]; apply X; reflexivity.
    + rewrite (strip_parts_loop orig cal sh is_ws left right a (c :: x) b S) in H by discriminate.
      destruct ((0 <? length a) || (0 <? length b)) eqn:G.
      * rewrite (transform_text _ _ _ _ _ _ _ _ W F H). rewrite strip_text_mid; [|lia|rewrite E, !app_length; lia].
        destruct a as [|a0 a]; [|reflexivity]. destruct b as [|b0 b]; [discriminate G|reflexivity].
      * injection H as <-. destruct a as [|a0 a]; [|discriminate G]. destruct b as [|b0 b]; [reflexivity|discriminate G].
Qed.

(** ** Examples and findings *)
(** [prepend("")] on any text that is not empty, followed by [map] ([lowercase], ...): a panic. *)
Theorem C17_prepend_refuted : forall c s f, run_norm_ops (nfrom (c :: s)) [MPrepend []; MMap f] = Panic.
Proof.
  intros c s f. cbn [run_norm_ops apply_norm_op]. rewrite nfrom_show. cbn [id_cal]. rewrite prepend_cal. cbn [first_replaces app trange tloop].
  unfold trange. cbn [firstn skipn app tloop]. change (0 <? 1)%Z with true. cbn [bind].
  assert (W : wf_cal (c :: s) ((c, (0, 0)) :: id_cal (len_utf8 c) s)).
  { pose proof (wf_id_cal (c :: s)) as [A B]. cbn [id_cal map snd] in A, B. split; cbn [map snd].
    - constructor; [apply okal_00|exact (Forall_inv_tail A)].
    - apply sorted_cons; [apply sorted_cons_inv in B; apply B|]. intros b _. split; apply Nat.le_0_l. }
  assert (P : n_map (show (c :: s) ((c, (0, 0)) :: id_cal (len_utf8 c) s) 0) f = Panic).
  { apply (panic_map (c :: s) _ [(c, (0, 0))] (id_cal (len_utf8 c) s) 0 W).
    - constructor; [reflexivity|repeat constructor|]. destruct s as [|d s]; [exact I|]. cbn [id_cal fst snd]. pose proof (len_utf8_pos d). lia.
    - split; [discriminate|cbn; lia]. }
  change (bind (n_map (show (c :: s) ((c, (0, 0)) :: id_cal (len_utf8 c) s) 0) f) (fun ns' => Ok ns') = Panic). rewrite P. reflexivity.
Qed.
(** [clear] does not clear what was inserted in front. *)
Theorem C17_clear_refuted : exists s ns, run_norm_ops (nfrom s) [MPrepend []; MClear] = Ok ns /\ n_normalized ns <> [].
Proof. exists [97]%N. eexists. split; [reflexivity|discriminate]. Qed.

(** A text with one character in front: filtering it away at the end avoids the panic. *)
Definition np_calls : list norm_op := [MPrepend []; MAppend [33%N]].
Example C17_exact_ex : exists ns, norm_reachable [97; 98]%N ns /\ n_normalized ns = [97; 98; 33]%N /\ front ns 1 /\
  sensible_calls (nfrom [97; 98]%N) (np_calls ++ [MFilter (N.eqb 33)]) /\
  apply_norm_op ns (MFilter (N.eqb 33)) = Panic /\ (exists ns', apply_norm_op ns (MFilter (N.eqb 98)) = Ok ns' /\ n_normalized ns' = [97; 98]%N).
Proof.
  eexists. split; [eapply norm_step with (op := MAppend [33%N]); [eapply norm_step with (op := MPrepend []); [apply norm_start|exact I|reflexivity]|exact I|reflexivity]|].
  split; [reflexivity|]. split.
  { exists [(97%N, (0, 0)); (98%N, (1, 2)); (33%N, (1, 2))]. split; [split; reflexivity|]. split; [cbn; lia|]. split.
    - intros ca [<-|[]]. reflexivity.
    - intros ca H. injection H as <-. cbn. lia. }
  split; [|split; [reflexivity|eexists; split; reflexivity]].
  cbn [np_calls app sensible_calls sensible in_contract]. repeat (split; [split; exact I|intros ? _]). exact I.
Qed.
