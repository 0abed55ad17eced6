(** The two extraction passes; the automata over a history. *)
From Verif Require Import Base StrBytes ListFacts AMap EncodingModel NormModel NormSpec NormProofs NormProofs4 NormProofs6
  PreTokModel PreTokSpec PreTokProofs AddedModel AddedSpec AddedProofs AddedProofs2 AddedProofs3.

Lemma n_slice_00 ns : exists al, n_slice ns (rn 0 0) = Ok (mkN [] [] al (n_shift ns + 0)).
Proof.
  unfold n_slice, validate_range, rn. cbn [full_range].
  assert (B : is_boundary (n_normalized ns) 0 = true) by apply is_boundary_0. rewrite B. cbn [andb].
  unfold convert_offsets. cbn [full_range]. cbn [Nat.eqb fst snd]. unfold get_range.
  replace ((0 <=? 0) && (0 <=? length (n_alignments ns))) with true by lia. cbn [Nat.sub firstn map_res bind].
  eexists. f_equal.
  unfold unwrap_or_default, n_get_range_original, n_get_range, convert_offsets. cbn [full_range Nat.eqb].
  assert (SG : forall s, str_get s 0 0 = Some []) by (intros s; unfold str_get; rewrite bsplit_0; reflexivity).
  rewrite !SG. reflexivity.
Qed.

Lemma split_stays_inside sp wd av trie ns new x : aligned ns -> safe_trie sp av trie ->
  split_with_indices sp wd av trie ns = Ok new -> In x new -> stays_inside ns (sp_norm x).
Proof.
  intros A S E HX. destruct (find_matches_tiles sp wd av (n_normalized ns) trie S) as (l & EL & T & N1 & N2).
  unfold split_with_indices in E. rewrite EL in E. cbn [bind] in E. apply map_res_ok in E.
  assert (G : exists o, In o l /\ token_split ns o = Ok x).
  { clear -E HX. induction E as [|a b l l' H F IH]; [destruct HX|]. destruct HX as [->|HX]; [exists a; cbn; auto|].
    destruct (IH HX) as (o & X & Y). exists o. cbn; auto. }
  destruct G as ([id [a b]] & HI & ES). unfold token_split in ES. cbn [fst snd] in ES.
  destruct (n_slice ns (rn a b)) as [ns'| |] eqn:EN; try discriminate. injection ES as <-. cbn [sp_norm].
  destruct (list_eq_dec N.eq_dec (n_normalized ns) []) as [EM|NM].
  - rewrite (N2 EM) in HI. destruct HI as [HI|[]]. injection HI as <- <- <-.
    destruct (n_slice_00 ns) as (al & EZ). rewrite EZ in EN. injection EN as <-.
    destruct (slice_empty_any ns 0 A (is_boundary_0 _)) as (ns'' & EZ' & _ & _ & AL). rewrite EZ in EZ'. injection EZ' as <-.
    split; [exact AL|]. exists [], (n_original ns). cbn. split; [reflexivity|reflexivity].
  - pose proof (N1 NM _ HI) as LT. cbn [fst snd] in LT.
    destruct T as [_ F]. rewrite Forall_map in F. rewrite Forall_forall in F. destruct (F _ HI) as (t & G). cbn [fst snd] in G.
    apply str_get_inv in G. destruct G as (p & q & E1 & E2 & E3).
    assert (B1 : is_boundary (n_normalized ns) a = true) by (apply is_boundary_spec; eauto).
    assert (B2 : is_boundary (n_normalized ns) b = true).
    { apply is_boundary_spec. exists (p ++ t), q. rewrite <- app_assoc, blen_app. split; [exact E1|lia]. }
    destruct (slice_normalized_any ns a b A LT B1 B2) as (ns2 & s & e & H1 & _ & _ & H4 & H5 & _ & H7).
    rewrite EN in H1. injection H1 as <-. split; [exact H7|].
    apply str_get_inv in H4. destruct H4 as (u & v & U1 & U2 & U3). exists u, v. split; [exact U1|].
    unfold offsets_original in H5. injection H5 as H5 _. lia.
Qed.

Lemma split_loop_total {E} (f : nat -> nstring -> res E (list split)) : forall l i,
  (forall j sp, In sp l -> exists new, f j (sp_norm sp) = Ok new) -> exists l', split_loop f i l = Ok l'.
Proof.
  induction l as [|sp l IH]; intros i H; [cbn; eauto|]. cbn [split_loop].
  destruct (IH (i + 1)) as (r & ER); [intros j s Hs; apply H; right; exact Hs|].
  destruct (sp_tokens sp).
  - rewrite ER. cbn. eauto.
  - destruct (H i sp (or_introl eq_refl)) as (new & EN). rewrite EN. cbn [bind]. rewrite ER. cbn. eauto.
Qed.

Definition norm_ok (norm : nstring -> nstring) : Prop :=
  forall ns, aligned ns -> aligned (norm ns) /\ same_source ns (norm ns).

Lemma split_normalized_inside sp wd av trie norm ns new x : aligned ns -> safe_trie sp av trie -> norm_ok norm ->
  split_with_indices sp wd av trie (norm ns) = Ok new -> In x new -> stays_inside ns (sp_norm x).
Proof.
  intros A S NO E HX. destruct (NO _ A) as [A' [S1 S2]].
  destruct (split_stays_inside _ _ _ _ _ _ _ A' S E HX) as (AX & u & v & U1 & U2). split; [exact AX|].
  exists u, v. rewrite S1, S2. auto.
Qed.

Lemma extract_inside sp wd av norm s :
  safe_trie sp av (av_trie av) -> safe_trie sp av (av_ntrie av) -> norm_ok norm ->
  exists pt, extract_and_normalize sp wd av norm s = Ok pt /\ inside_history s pt.
Proof.
  intros S1 S2 NO. unfold extract_and_normalize.
  assert (H0 : inside_history s (pre_from s)).
  { unfold pre_from. apply in_start; [apply nfrom_aligned|reflexivity|reflexivity]. }
  destruct (split_loop_total (fun _ ns => split_with_indices sp wd av (av_trie av) ns) (pt_splits (pre_from s)) 0) as (l1 & E1).
  { intros j x [<-|[]]. cbn [sp_norm]. destruct (split_with_indices_cuts sp wd av (av_trie av) (nfrom s) (nfrom_aligned s) S1) as (l & sps & _ & E & _). eauto. }
  set (pt1 := mkPre (pt_original (pre_from s)) l1).
  assert (P1 : pt_split (fun _ ns => split_with_indices sp wd av (av_trie av) ns) (pre_from s) = Ok pt1) by (unfold pt_split; rewrite E1; reflexivity).
  rewrite P1. cbn [bind].
  assert (H1 : inside_history s pt1).
  { eapply in_split; [exact H0| |exact P1]. intros i ns new x A E HX _. cbv beta in E. exact (split_stays_inside _ _ _ _ _ _ _ A S1 E HX). }
  pose proof (inside_history_inv s pt1 H1) as [_ F1]. rewrite Forall_forall in F1.
  destruct (split_loop_total (fun _ ns => split_with_indices sp wd av (av_ntrie av) (norm ns)) (pt_splits pt1) 0) as (l2 & E2).
  { intros j x HX. destruct (F1 x HX) as [AX _]. destruct (NO _ AX) as [AN _].
    destruct (split_with_indices_cuts sp wd av (av_ntrie av) (norm (sp_norm x)) AN S2) as (l & sps & _ & E & _). eauto. }
  assert (P2 : pt_split (fun _ ns => split_with_indices sp wd av (av_ntrie av) (norm ns)) pt1 = Ok (mkPre (pt_original pt1) l2)) by (unfold pt_split; rewrite E2; reflexivity).
  rewrite P2. eexists. split; [reflexivity|]. eapply in_split; [exact H1| |exact P2].
  intros i ns new x A E HX _. cbv beta in E. exact (split_normalized_inside _ _ _ _ _ _ _ _ A S2 NO E HX).
Qed.

Lemma extract_cuts sp wd av s pt : safe_trie sp av (av_trie av) -> safe_trie sp av (av_ntrie av) ->
  extract_and_normalize sp wd av (fun ns => ns) s = Ok pt -> cut_history (fun _ => False) (nfrom s) pt.
Proof.
  intros S1 S2 E. unfold extract_and_normalize in E. apply bind_ok in E. destruct E as (pt1 & P1 & P2).
  assert (OC : forall trie, safe_trie sp av trie -> only_cuts (fun _ => False) (fun (_ : nat) ns => split_with_indices sp wd av trie ns)).
  { intros trie S i ns new A H. destruct (split_with_indices_cuts sp wd av trie ns A S) as (l & sps & _ & E & _ & C). rewrite H in E. injection E as ->. exact C. }
  eapply cut_split; [eapply cut_split; [apply cut_start| |exact P1]| |exact P2]; apply OC; assumption.
Qed.

(** ** Patterns over a history *)
Lemma recorded_content m normed t av next av' next' id :
  av_inv m av -> av_inv m av' -> recorded m normed t av next av' next' id ->
  forall i t0, aget N.eqb i (av_map_r av) = Some t0 -> exists t1, aget N.eqb i (av_map_r av') = Some t1 /\ at_content t1 = at_content t0.
Proof.
  intros I I' R i t0 H. destruct (ai_bwd _ _ I _ _ H) as [B _].
  assert (K : av_token_to_id av' m (at_content t0) = Some i).
  { eapply recorded_keeps; [exact R|]. unfold av_token_to_id. rewrite B. reflexivity. }
  assert (M : aget str_eqb (at_content t0) (av_map av') = Some i).
  { rewrite (registered_map_set _ _ _ _ _ _ _ _ R) in *. destruct (str_eqb (at_content t0) (at_content t)) eqn:E; [|exact B].
    unfold av_token_to_id in K. rewrite (registered_map_set _ _ _ _ _ _ _ _ R), E in K. exact K. }
  destruct (ai_fwd _ _ I' _ _ M) as (t1 & X & Y). eauto.
Qed.

(** Tokens of [av] are still tokens of [av'], with the same content. *)
Definition grows (av av' : added_vocab) : Prop :=
  forall i t0, aget N.eqb i (av_map_r av) = Some t0 -> exists t1, aget N.eqb i (av_map_r av') = Some t1 /\ at_content t1 = at_content t0.

Lemma grows_refl av : grows av av.
Proof. intros i t H. eauto. Qed.
Lemma grows_trans a b c : grows a b -> grows b c -> grows a c.
Proof. intros H1 H2 i t H. destruct (H1 _ _ H) as (t1 & X & Y). destruct (H2 _ _ X) as (t2 & X2 & Y2). exists t2. split; [exact X2|congruence]. Qed.

Lemma add_one_tries m normed t av next av' next' rec : add_one m normed t av next = (av', next', rec) ->
  av_trie av' = av_trie av /\ av_ntrie av' = av_ntrie av.
Proof.
  unfold add_one. destruct (is_nil (at_content t)); [intros H; injection H as <- <- <-; auto|].
  match goal with |- context [if ?b then (av, next, false) else _] => destruct b end; [intros H; injection H as <- <- <-; auto|].
  destruct (match av_token_to_id av m (at_content t) with Some i => (i, next) | None => (next, (next + 1)%N) end) as [a b].
  intros H. injection H as <- <- <-. cbn. auto.
Qed.

Lemma add_loop_tries m norm : forall ts av next n av' r, add_loop m norm ts av next n = (av', r) ->
  av_trie av' = av_trie av /\ av_ntrie av' = av_ntrie av.
Proof.
  induction ts as [|t ts IH]; intros av next n av' r H; cbn [add_loop] in H; [injection H as <- <-; auto|].
  assert (GO : forall normed, (let '(av'0, next', rec) := add_one m normed t av next in
       add_loop m norm ts av'0 next' (if rec then n + 1 else n)) = (av', r) -> av_trie av' = av_trie av /\ av_ntrie av' = av_ntrie av).
  { intros normed HH. destruct (add_one m normed t av next) as [[a b] c] eqn:E. apply add_one_tries in E. apply IH in HH.
    destruct E as [E1 E2]. rewrite <- E1, <- E2. exact HH. }
  destruct norm as [f|]; [|eapply GO; eauto].
  destruct (is_ignored t av || negb (at_normalized t)); [eapply GO; eauto|].
  destruct (f (at_content t)); [eapply GO; eauto|]. injection H as <- <-. auto.
Qed.

Lemma add_loop_grows m norm ts av next n av' r : model_ok m -> dense m -> av_inv m av -> free_from m av next ->
  add_loop m norm ts av next n = (av', r) -> grows av av'.
Proof.
  intros MO D I F H.
  pose proof (add_loop_ind m norm (fun _ a nx _ => (av_inv m a /\ free_from m a nx) /\ grows av a)) as X. cbv beta in X.
  assert (ST : forall (t : added_token) (ts0 : list added_token) (av0 : added_vocab) (next0 : N) (n0 : nat)
      (av'0 : added_vocab) (next' id : N) (normed : option str),
      (forall x, normed = Some x -> exists f, norm = Some f /\ f (at_content t) = Some x) ->
      recorded m normed t av0 next0 av'0 next' id -> (av_inv m av0 /\ free_from m av0 next0) /\ grows av av0 ->
      (av_inv m av'0 /\ free_from m av'0 next') /\ grows av av'0).
  { intros t _ a nx _ a1 nx1 id normed _ R [[I0 F0] G0]. pose proof (recorded_inv _ _ _ _ _ _ _ _ MO D R I0 F0) as [I1 F1].
    split; [auto|]. eapply grows_trans; [exact G0|]. intros i t0. eapply recorded_content; eauto. }
  specialize (X ltac:(auto) ST ts av next n av' r (conj (conj I F) (grows_refl av)) H).
  destruct r; [destruct X as (? & _ & X)|destruct X as (? & ? & ? & (_ & X) & _)]; exact X.
Qed.

(** The plain automaton holds contents of tokens; the other one contents or
    normalised forms of contents. *)
Definition tries_inv (NF : (str -> option str) -> Prop) (av : added_vocab) : Prop :=
  (forall pats p i, av_trie av = Some pats -> In (p, i) pats ->
     exists t, aget N.eqb i (av_map_r av) = Some t /\ at_content t = p) /\
  (forall pats p i, av_ntrie av = Some pats -> In (p, i) pats ->
     exists t, aget N.eqb i (av_map_r av) = Some t /\ (at_content t = p \/ exists f, NF f /\ f (at_content t) = Some p)).

Lemma tries_inv_grows NF av av' : grows av av' -> av_trie av' = av_trie av -> av_ntrie av' = av_ntrie av ->
  tries_inv NF av -> tries_inv NF av'.
Proof.
  intros G E1 E2 [T1 T2]. split; intros pats p i H HI.
  - rewrite E1 in H. destruct (T1 _ _ _ H HI) as (t & X & Y). destruct (G _ _ X) as (t1 & X1 & Y1). exists t1. split; [exact X1|congruence].
  - rewrite E2 in H. destruct (T2 _ _ _ H HI) as (t & X & Y). destruct (G _ _ X) as (t1 & X1 & Y1). exists t1. split; [exact X1|].
    destruct Y as [Y|(f & F1 & F2)]; [left; congruence|right; exists f; split; [exact F1|congruence]].
Qed.

Lemma plain_pairs_in m av p i : av_inv m av -> In (p, i) (plain_pairs av) <->
  exists t, aget N.eqb i (av_map_r av) = Some t /\ at_content t = p /\ at_normalized t = false.
Proof.
  intros I. unfold plain_pairs. rewrite in_flat_map. split.
  - intros ([j t] & H & X). cbn [fst snd] in X. destruct (at_normalized t) eqn:E; [destruct X|]. destruct X as [X|[]]. injection X as <- <-.
    exists t. split; [|auto]. apply (In_aget N.eqb N_eqb_eq); [apply (ai_keys_r _ _ I)|exact H].
  - intros (t & H & <- & E). apply (aget_In N.eqb N_eqb_eq) in H. exists (i, t). split; [exact H|]. cbn [fst snd]. rewrite E. left. reflexivity.
Qed.

Lemma normalized_pairs_in m NF av p i : av_inv m av -> cache_inv NF av -> In (p, i) (normalized_pairs av) ->
  exists t, aget N.eqb i (av_map_r av) = Some t /\ (at_content t = p \/ exists f, NF f /\ f (at_content t) = Some p).
Proof.
  intros I C H. unfold normalized_pairs in H. apply in_flat_map in H. destruct H as ([j t] & H & X). cbn [fst snd] in X.
  destruct (at_normalized t); [|destruct X]. destruct X as [X|[]]. injection X as <- <-.
  assert (HT : aget N.eqb j (av_map_r av) = Some t) by (apply (In_aget N.eqb N_eqb_eq); [apply (ai_keys_r _ _ I)|exact H]).
  exists t. split; [exact HT|]. destruct (aget N.eqb j (av_cache av)) as [x|] eqn:E; [|left; reflexivity]. right.
  destruct (C _ _ E) as (t' & f & A & B & D). exists f. split; [exact B|congruence].
Qed.

Lemma refresh_tries build m NF av av' ok : av_inv m av -> cache_inv NF av -> tries_inv NF av ->
  av_refresh build av = (av', ok) -> tries_inv NF av'.
Proof.
  intros I C [T1 T2] H. unfold av_refresh in H.
  assert (P1 : forall pats p i, (if is_nil (plain_pairs av) then None else Some (plain_pairs av)) = Some pats -> In (p, i) pats ->
     exists t, aget N.eqb i (av_map_r av) = Some t /\ at_content t = p).
  { intros pats p i E HI. destruct (is_nil (plain_pairs av)); [discriminate|]. injection E as <-. apply (plain_pairs_in m) in HI; [|exact I].
    destruct HI as (t & A & B & _). eauto. }
  assert (P2 : forall pats p i, (if is_nil (normalized_pairs av) then None else Some (normalized_pairs av)) = Some pats -> In (p, i) pats ->
     exists t, aget N.eqb i (av_map_r av) = Some t /\ (at_content t = p \/ exists f, NF f /\ f (at_content t) = Some p)).
  { intros pats p i E HI. destruct (is_nil (normalized_pairs av)); [discriminate|]. injection E as <-. eapply normalized_pairs_in; eauto. }
  destruct (is_nil (plain_pairs av) || build (plain_pairs av)).
  - destruct (is_nil (normalized_pairs av) || build (normalized_pairs av)); injection H as <- <-; split; cbn [av_trie av_ntrie av_map_r]; auto.
  - injection H as <- <-. split; auto.
Qed.

Lemma tries_history build m NF av offered taken : model_ok m -> dense m -> added_history build m NF av offered taken -> tries_inv NF av.
Proof.
  intros MO D H.
  assert (QA : forall av offered taken norm ts av' r, added_history build m NF av offered taken -> (forall f, norm = Some f -> NF f) ->
     tries_inv NF av -> add_tokens build m norm ts av = (av', r) ->
     (forall n, r = Some n -> added_history build m NF av' (offered ++ ts) (taken ++ ts)) ->
     (r = None -> added_history build m NF av' (offered ++ ts) taken) -> tries_inv NF av').
  { intros a off tk norm ts b r HH HN T E K1 K2.
    pose proof (history_inv _ _ _ _ _ _ MO D HH) as IA.
    assert (CB : cache_inv NF b).
    { destruct r as [n|]; [eapply cache_history; [exact MO|exact D|apply (K1 n eq_refl)]|eapply cache_history; [exact MO|exact D|apply K2; reflexivity]]. }
    unfold add_tokens in E. destruct (add_loop m norm ts a (first_next_id a m) 0) as [a1 r1] eqn:EL.
    pose proof (add_loop_grows _ _ _ _ _ _ _ _ MO D IA (first_next_free _ _ D IA) EL) as G.
    destruct (add_loop_inv _ _ _ _ _ _ _ _ MO D IA (first_next_free _ _ D IA) EL) as [I1 _].
    destruct (add_loop_tries _ _ _ _ _ _ _ _ EL) as [E1 E2].
    pose proof (tries_inv_grows NF a a1 G E1 E2 T) as T1.
    destruct r1 as [k|]; [|injection E as <- <-; exact T1].
    destruct (av_refresh build a1) as [a2 ok] eqn:ER. injection E as <- _.
    destruct (av_refresh_core _ _ _ _ ER) as ((C1 & C2 & C3) & C4 & _).
    eapply refresh_tries; [exact I1| |exact T1|exact ER].
    intros i n Hi. rewrite <- C4 in Hi. destruct (CB _ _ Hi) as (t & f & X). rewrite C2 in X. eauto. }
  induction H as [|av offered taken norm ts av' n H IH NFH A|av offered taken norm ts av' H IH NFH A|av offered taken norm av' ok H IH NFH A|av offered taken b H IH].
  - split; cbn; discriminate.
  - eapply QA; eauto; [|discriminate]. intros k _. eapply ah_add; eauto.
  - eapply QA; eauto; [discriminate|]. intros _. eapply ah_fail; eauto.
  - pose proof (history_inv _ _ _ _ _ _ MO D H) as IA.
    pose proof (cache_history _ _ _ _ _ _ MO D (ah_renormalize _ _ _ _ _ _ _ _ _ H NFH A)) as CB.
    pose proof (renormalize_core _ _ _ _ _ A) as (C1 & C2 & C3).
    unfold av_refresh_normalized in A. destruct (recache norm (av_map_r av) []) as [c [|]] eqn:EC.
    + set (a1 := mkAV (av_map av) (av_map_r av) (av_special av) c (av_trie av) (av_ntrie av) (av_encode_special av)) in *.
      pose proof (av_refresh_core _ _ _ _ A) as (_ & C4 & _).
      eapply refresh_tries; [| | |exact A].
      * eapply av_inv_core; [|exact IA]. repeat split.
      * intros i n Hi. rewrite <- C4 in Hi. destruct (CB _ _ Hi) as (t & f & X). rewrite C2 in X. eauto.
      * exact IH.
    + injection A as <- <-. exact IH.
  - exact IH.
Qed.

Lemma tries_known NF av : tries_inv NF av ->
  (forall pats, av_trie av = Some pats -> known_patterns av pats) /\
  (forall pats, av_ntrie av = Some pats -> known_patterns av pats).
Proof.
  intros [T1 T2]. split; intros pats E p i HI; [destruct (T1 _ _ _ E HI) as (t & X & _)|destruct (T2 _ _ _ E HI) as (t & X & _)]; eauto.
Qed.
