(** Proofs about the pre-tokenizers: every pass succeeds and stays inside the text. *)
From Coq Require Import ZArith.
From Verif Require Import Base ListFacts StrBytes Utf8 PatternModel PatternSpec PatternProofs EncodingModel NormModel NormSpec NormProofs NormProofs3 NormProofs4 NormProofs6 NormProps
  ByteLevelModel DecodersModel DecodersSpec DecodersProofs2 DecodersProofs3 PreTokSpec PreTokProofs PreTokProps EndToEndSpec EndToEndProofs EndToEndProps PreTokenizersModel PreTokenizersSpec PreTokModel
  PreTokenizersProofs.

Definition texts (l : list split) : list str := map (fun sp => n_normalized (sp_norm sp)) l.
Definition group (R : str -> list str -> Prop) (sp : split) (g : list split) : Prop :=
  match sp_tokens sp with
  | Some _ => g = [sp]
  | None => Forall (fun sp' => sp_tokens sp' = None) g /\ R (n_normalized (sp_norm sp)) (texts g)
  end.

Definition pass_ok (F : pretok -> res unit pretok) (R : str -> list str -> Prop) : Prop :=
  forall s pt, inside_history s pt -> Forall section_ok (pt_splits pt) ->
    exists pt' groups, F pt = Ok pt' /\ inside_history s pt' /\ Forall section_ok (pt_splits pt') /\
      pt_splits pt' = concat groups /\ Forall2 (group R) (pt_splits pt) groups.

Definition closure_ok (f : nat -> nstring -> res unit (list split)) (R : str -> list str -> Prop) : Prop :=
  (forall i ns, live ns -> exists new, f i ns = Ok new /\ Forall (fun sp => sp_tokens sp = None /\ live (sp_norm sp)) (keep_nonempty new) /\
     R (n_normalized ns) (texts (keep_nonempty new))) /\
  (forall i ns new sp, aligned ns -> f i ns = Ok new -> In sp new -> n_normalized (sp_norm sp) <> [] -> stays_inside ns (sp_norm sp)).

Lemma split_pass f R : closure_ok f R -> pass_ok (pt_split f) R.
Proof.
  intros [H1 H2] s pt I L. unfold pt_split.
  destruct (split_loop_ok f (fun sp g => group R sp g /\ Forall section_ok g) (pt_splits pt) 0) as (groups & E & F).
  { intros sp Hin. rewrite Forall_forall in L. specialize (L sp Hin). unfold group. destruct (sp_tokens sp) as [ts|] eqn:Et.
    - split; [reflexivity|]. constructor; [exact L|constructor].
    - intros i. destruct (H1 i (sp_norm sp) (L Et)) as (new & En & Fn & Rn). exists new. split; [exact En|]. split; [split; [|exact Rn]|].
      + eapply Forall_impl; [|exact Fn]. cbn beta. tauto.
      + eapply Forall_impl; [|exact Fn]. intros a [_ X] _. exact X. }
  rewrite E. cbn [bind]. eexists. exists groups. split; [reflexivity|]. split; [|split; [|split]].
  - eapply (in_split s unit f pt); [exact I|exact H2|]. unfold pt_split. rewrite E. reflexivity.
  - cbn [pt_splits]. apply Forall_concat. clear -F. induction F as [|? ? ? ? [_ X] _ IH]; constructor; auto.
  - reflexivity.
  - clear -F. induction F as [|? ? ? ? [X _] _ IH]; constructor; auto.
Qed.

Lemma norm_pass f (h : str -> str) :
  (forall ns, live ns -> exists ns', f ns = Ok ns' /\ live ns' /\ n_normalized ns' = h (n_normalized ns)) ->
  (forall ns ns', aligned ns -> f ns = Ok ns' -> aligned ns' /\ same_source ns ns') ->
  pass_ok (pt_normalize f) (fun s ps => ps = [h s]).
Proof.
  intros H1 H2 s pt I L. 
  assert (X : exists l', map_res (normalize_one f) (pt_splits pt) = Ok l' /\ Forall section_ok l' /\
            Forall2 (group (fun s ps => ps = [h s])) (pt_splits pt) (map (fun sp => [sp]) l')).
  { induction L as [|sp l Hs _ (l' & E & F1 & F2)]; [exists []; split; [reflexivity|split; constructor]|]. cbn [map_res]. unfold normalize_one at 1.
    unfold group. destruct (sp_tokens sp) as [ts|] eqn:Et.
    - cbn [bind]. rewrite E. cbn [bind]. exists (sp :: l'). split; [reflexivity|]. split; [constructor; assumption|]. cbn [map]. constructor; [|exact F2]. rewrite Et. reflexivity.
    - destruct (H1 (sp_norm sp) (Hs Et)) as (ns' & En & Ln & Tn). rewrite En. cbn [bind]. rewrite E. cbn [bind]. exists (mkSplit ns' None :: l'). split; [reflexivity|].
      split; [constructor; [intros _; exact Ln|assumption]|]. cbn [map]. constructor; [|exact F2]. rewrite Et. split; [constructor; [reflexivity|constructor]|].
      cbn. rewrite Tn. reflexivity. }
  destruct X as (l' & E & F1 & F2). unfold pt_normalize. rewrite E. cbn [bind]. eexists. eexists. split; [reflexivity|]. split; [|split; [exact F1|split; [|exact F2]]].
  - eapply (in_normalize s unit f pt); [exact I|exact H2|]. unfold pt_normalize. rewrite E. reflexivity.
  - cbn [pt_splits]. clear. induction l' as [|a l IH]; [reflexivity|]. cbn [map concat app]. f_equal. exact IH.
Qed.

Definition comp (R S : str -> list str -> Prop) (s : str) (ps : list str) : Prop := exists ms gs, R s ms /\ Forall2 S ms gs /\ ps = concat gs.

Lemma group_comp R S l g1s : Forall2 (group R) l g1s -> forall g2s, Forall2 (group S) (concat g1s) g2s ->
  exists gs, concat g2s = concat gs /\ Forall2 (group (comp R S)) l gs.
Proof.
  induction 1 as [|sp g1 l g1s G _ IH]; intros g2s F.
  - inversion F; subst. exists []. split; [reflexivity|constructor].
  - cbn [concat] in F. apply Forall2_app_inv_l in F. destruct F as (h1 & h2 & F1 & F2 & ->). destruct (IH h2 F2) as (gs & E & FF).
    exists (concat h1 :: gs). split; [rewrite concat_app, E; reflexivity|]. constructor; [|exact FF]. unfold group in *. destruct (sp_tokens sp) as [ts|] eqn:Et.
    + subst g1. inversion F1 as [|? ? ? ? G1 F3]; subst. inversion F3; subst. rewrite Et in G1. subst. cbn. reflexivity.
    + destruct G as [N Rg].
      assert (X : Forall (fun sp' => sp_tokens sp' = None) (concat h1) /\ exists ts, Forall2 S (texts g1) ts /\ texts (concat h1) = concat ts).
      { clear -F1 N. induction F1 as [|a b g1 h1 G _ IH]; [split; [constructor|exists []; split; [constructor|reflexivity]]|].
        inversion N as [|? ? N1 N2]; subst. rewrite N1 in G. destruct G as [G1 G2]. destruct (IH N2) as (X1 & ts & X2 & X3). split.
        - cbn [concat]. apply Forall_app. auto.
        - exists (texts b :: ts). split; [constructor; assumption|]. cbn [concat]. unfold texts in *. rewrite map_app, X3. reflexivity. }
      destruct X as (X1 & ts & X2 & X3). split; [exact X1|]. exists (texts g1), ts. auto.
Qed.

Lemma seq_pass F R G S : pass_ok F R -> pass_ok G S -> pass_ok (fun pt => let! pt := F pt in G pt) (comp R S).
Proof.
  intros HF HG s pt I L. destruct (HF s pt I L) as (pt1 & g1s & E1 & I1 & L1 & C1 & F1). destruct (HG s pt1 I1 L1) as (pt2 & g2s & E2 & I2 & L2 & C2 & F2).
  rewrite C1 in F2. destruct (group_comp R S _ _ F1 _ F2) as (gs & C & FF). exists pt2, gs. rewrite E1. cbn [bind].
  split; [exact E2|]. split; [exact I2|]. split; [exact L2|]. split; [congruence|exact FF].
Qed.

Lemma pass_weaken F (R S : str -> list str -> Prop) : (forall s ps, R s ps -> S s ps) -> pass_ok F R -> pass_ok F S.
Proof.
  intros W H s pt I L. destruct (H s pt I L) as (pt' & gs & E & I' & L' & C & F'). exists pt', gs. split; [exact E|]. split; [exact I'|]. split; [exact L'|]. split; [exact C|].
  clear -W F'. induction F' as [|sp g l gs G _ IH]; constructor; [|exact IH]. unfold group in *. destruct (sp_tokens sp); [exact G|]. destruct G; split; auto.
Qed.

(** ** Splits on a pattern *)
Lemma pattern_closure ms b (R : str -> list str -> Prop) :
  (forall s, exists segs, covers_text (ms s) segs s /\ R s (nonempty_parts (spec_split b segs))) ->
  closure_ok (split_with ms b) R.
Proof.
  intros H. split.
  - intros i ns L. destruct (H (n_normalized ns)) as (segs & C & Rs). destruct (split_live ns _ segs b L C) as (pieces & E & M & F).
    unfold split_with. rewrite E. cbn [bind]. eexists. split; [reflexivity|]. split; [apply keep_plain_Forall; exact F|].
    unfold texts. rewrite keep_nonempty_texts, M. exact Rs.
  - intros i ns new sp A E. apply (cut_stays_inside (fun _ => True) (split_with ms b) i ns new sp); auto.
    apply C21_pattern_split_only_cuts. intros s. destruct (H s) as (segs & C & _). exists segs. split; [exact C|]. intros _ t _. apply Forall_forall. auto.
Qed.

Lemma pred_closure p b : closure_ok (split_with (pred_find_matches p) b) (by_behavior p b).
Proof. apply pattern_closure. intros s. apply pred_split. Qed.

Lemma regex_closure find b : (forall s, engine_matches s 0 (find s)) ->
  closure_ok (split_with (regex_find_matches find) b) (fun s ps => exists segs, engine_segs find s segs /\ ps = nonempty_parts (spec_split b segs)).
Proof.
  intros H. apply pattern_closure. intros s. destruct (C16_regex find s (H s)) as (segs & C & _). exists segs. split; [exact C|]. exists segs. split; [exact C|reflexivity].
Qed.
Lemma invert_closure find b : (forall s, engine_matches s 0 (find s)) ->
  closure_ok (split_with (fun s => invert_matches (regex_find_matches find s)) b)
    (fun s ps => exists segs, engine_segs find s segs /\ ps = nonempty_parts (spec_split b (flipped segs))).
Proof.
  intros H. apply pattern_closure. intros s. destruct (C16_regex find s (H s)) as (segs & C & _). exists (flipped segs).
  split; [apply C16_invert; exact C|]. exists segs. split; [exact C|reflexivity].
Qed.
Lemma removed_flipped (segs : list (str * bool)) : spec_removed (flipped segs) = map fst (filter snd segs).
Proof.
  unfold spec_removed, flipped. induction segs as [|[t f] l IH]; [reflexivity|]. cbn [map filter fst snd]. destruct f; cbn [negb map fst]; rewrite IH; reflexivity.
Qed.

(** ** Byte level *)
Lemma transform_source ns dest k ns' : transform ns dest k = Ok ns' -> same_source ns ns'.
Proof.
  unfold transform, transform_range. destruct (convert_offsets ns _) as [[a b]|]; [|intros H; injection H as <-; split; reflexivity].
  intros H. apply bind_ok in H. destruct H as (r & _ & H). apply bind_ok in H. destruct H as (al & _ & H). apply bind_ok in H. destruct H as (al' & _ & H).
  apply bind_ok in H. destruct H as (s & _ & H). injection H as <-. split; reflexivity.
Qed.

Lemma byte_image_text s : text s -> text (byte_image s).
Proof.
  intros T. unfold byte_image. apply Forall_forall. intros c Hc. apply in_map_iff in Hc. destruct Hc as (b & <- & Hb).
  assert (B : (b < 256)%N).
  { unfold encode_utf8 in Hb. apply in_flat_map in Hb. destruct Hb as (x & Hx & Hb). unfold text in T. rewrite Forall_forall in T. specialize (T x Hx).
    pose proof (encode_char_bytes x T) as F. rewrite Forall_forall in F. exact (F b Hb). }
  apply alphabet in B. apply B.
Qed.

Lemma byte_norm_live ns : live ns -> exists ns', byte_level_norm ns = Ok ns' /\ live ns' /\ n_normalized ns' = byte_image (n_normalized ns).
Proof.
  intros (A & S & T). rewrite byte_level_norm_case by exact T.
  destruct (C61_case ns image_char A (solid_head ns S) image_char_nonempty) as (ns' & cal & E & Q & S1 & S2).
  exists ns'. split; [exact E|].
  assert (TX : n_normalized ns' = byte_image (n_normalized ns)).
  { destruct S1 as [H1 _], S2 as [H2 _]. rewrite H2, ctext_flat, <- H1. apply byte_image_flat. exact T. }
  split; [|exact TX]. split; [apply (aligned_step ns (MCase image_char) ns' A Logic.I E)|]. split; [|rewrite TX; apply byte_image_text; exact T].
  apply (solid_shows _ _ S1) in S. apply (solid_shows _ _ S2). apply Forall_flat_map. eapply Forall_impl; [|exact S]. intros ca H. apply Forall_forall.
  intros x Hx. apply in_map_iff in Hx. destruct Hx as (c & <- & _). exact H.
Qed.

Lemma byte_norm_source ns ns' : aligned ns -> byte_level_norm ns = Ok ns' -> aligned ns' /\ same_source ns ns'.
Proof.
  intros A H. unfold byte_level_norm in H. apply bind_ok in H. destruct H as (ts & _ & H). split; [|eapply transform_source; eauto].
  exact (aligned_step ns (MTransform (concat ts) 0) ns' A Logic.I H).
Qed.

Lemma same_stays ns ns' : aligned ns' -> same_source ns ns' -> stays_inside ns ns'.
Proof. intros A [E1 E2]. split; [exact A|]. exists [], []. rewrite app_nil_r. cbn. split; [congruence|]. rewrite E2. lia. Qed.

Lemma prepend_source ns c ns' : aligned ns -> n_prepend ns [c] = Ok ns' -> aligned ns' /\ same_source ns ns'.
Proof.
  intros A H. split; [exact (aligned_step ns (MPrepend [c]) ns' A Logic.I H)|].
  destruct (n_normalized ns) as [|d s] eqn:E.
  - unfold n_prepend in H. rewrite E in H. injection H as <-. split; reflexivity.
  - destruct (prepend_ok ns c A ltac:(rewrite E; discriminate)) as (ns2 & E2 & Q & _). rewrite H in E2. injection E2 as <-. exact Q.
Qed.

Lemma prepend_live ns c : live ns -> is_scalar c = true -> exists ns', n_prepend ns [c] = Ok ns' /\ live ns' /\
  n_normalized ns' = match n_normalized ns with [] => [] | s => c :: s end.
Proof.
  intros (A & S & T) Sc. destruct (n_normalized ns) as [|d s] eqn:E.
  - exists ns. unfold n_prepend. rewrite E. split; [reflexivity|]. split; [|first [exact E|reflexivity]]. split; [exact A|]. split; [exact S|]. rewrite E. constructor.
  - destruct (prepend_ok ns c A ltac:(rewrite E; discriminate)) as (ns2 & E2 & _ & TX & A2 & S2). exists ns2. split; [exact E2|].
    split; [|rewrite TX, E; reflexivity]. split; [exact A2|]. split; [auto|]. rewrite TX, E. constructor; assumption.
Qed.

(** The rest of a closure after some rewriting. *)
Lemma split_stays ns ns' ms segs b pieces p : stays_inside ns ns' -> covers_text ms segs (n_normalized ns') -> n_split ns' ms b = Ok pieces -> In p pieces ->
  n_normalized p <> [] -> stays_inside ns p.
Proof.
  intros (A & u & v & E1 & E2) C E I N. destruct (C15_split ns' ms segs b A C) as (pieces' & csegs & E' & _ & _ & F). rewrite E in E'. injection E' as <-. clear E.
  induction F as [|t q ts qs [P Q] _ IH]; [destruct I|]. destruct I as [->|I]; [|auto]. split; [exact Q|]. destruct t as [|[c a] r]; [destruct P as [P _]; congruence|].
  destruct P as (u' & v' & H1 & _ & _ & H2 & _). exists (u ++ u'), (v' ++ v). rewrite E1, H1, <- !app_assoc, blen_app. split; [reflexivity|lia].
Qed.

Lemma byte_closure find aps use_regex : (forall s, engine_matches s 0 (find s)) ->
  closure_ok (byte_level_one find aps use_regex)
    (fun s ps => exists parts, engine_pieces find use_regex (with_prefix_space aps s) parts /\ concat parts = with_prefix_space aps s /\ ps = nonempty_parts parts).
Proof.
  intros HF. split.
  - intros i ns L. unfold byte_level_one.
    assert (P : exists ns1, (if aps && negb (starts_with_char 32%N (n_normalized ns)) then n_prepend ns [32%N] else Ok ns) = Ok ns1 /\
       live ns1 /\ n_normalized ns1 = with_prefix_space aps (n_normalized ns)).
    { destruct aps; cbn [andb with_prefix_space]; [|exists ns; auto]. destruct (prepend_live ns 32%N L eq_refl) as (ns1 & E1 & L1 & T1).
      destruct (n_normalized ns) as [|c s] eqn:E; cbn [starts_with_char negb]; [exists ns1; auto|].
      destruct (N.eqb c 32) eqn:Ec; cbn [negb]; [exists ns; rewrite E; auto|exists ns1; auto]. }
    destruct P as (ns1 & -> & L1 & T1). cbn [bind]. destruct use_regex.
    + destruct (C16_regex find (n_normalized ns1) (HF _)) as (segs & C & _ & _). destruct (split_live ns1 _ segs Isolated L1 C) as (pieces & -> & M & F).
      cbn [bind]. eexists. split; [reflexivity|]. split; [apply keep_plain_Forall; exact F|]. exists (map fst segs). unfold texts. rewrite keep_nonempty_texts, M.
      unfold engine_pieces. rewrite <- T1. split; [eauto|]. split; [symmetry; apply C|reflexivity].
    + cbn [bind]. eexists. split; [reflexivity|]. split; [apply keep_plain_Forall; constructor; [exact L1|constructor]|]. exists [n_normalized ns1].
      unfold texts. rewrite keep_nonempty_texts. unfold engine_pieces. rewrite <- T1. split; [reflexivity|]. split; [apply app_nil_r|reflexivity].
  - intros i ns new sp A H Hin Hne. unfold byte_level_one in H. apply bind_ok in H. destruct H as (ns1 & H1 & H). apply bind_ok in H. destruct H as (l & H2 & H).
    injection H as <-. unfold plain_splits in Hin. apply in_map_iff in Hin. destruct Hin as (q & <- & Hq). cbn [sp_norm] in *.
    assert (I1 : stays_inside ns ns1).
    { destruct (aps && _).
      - destruct (prepend_source ns _ ns1 A H1). apply same_stays; assumption.
      - injection H1 as <-. apply same_stays; [exact A|split; reflexivity]. }
    destruct use_regex.
    + destruct (C16_regex find (n_normalized ns1) (HF _)) as (segs & C & _ & _). eapply split_stays; eauto.
    + injection H2 as <-. destruct Hq as [<-|[]]. exact I1.
Qed.

Lemma byte_pass find aps use_regex : (forall s, engine_matches s 0 (find s)) ->
  pass_ok (byte_level_pre_tokenize find aps use_regex)
    (fun s ps => exists parts, engine_pieces find use_regex (with_prefix_space aps s) parts /\ concat parts = with_prefix_space aps s /\ ps = map byte_image (nonempty_parts parts)).
Proof.
  intros HF. pose proof (seq_pass _ _ _ _ (split_pass _ _ (byte_closure find aps use_regex HF)) (norm_pass byte_level_norm byte_image byte_norm_live byte_norm_source)) as H.
  eapply pass_weaken; [|exact H]. intros s ps (ms & gs & (parts & P1 & P2 & ->) & F & ->). exists parts. split; [exact P1|]. split; [exact P2|].
  clear -F. induction F as [|x y l l' E _ IH]; [reflexivity|]. subst y. cbn [map concat app]. f_equal. exact IH.
Qed.

(** ** Metaspace *)
Lemma replace_live ns rep : live ns -> is_scalar rep = true ->
  exists ns', n_replace ns (char_find_matches 32%N (n_normalized ns)) [rep] = Ok ns' /\ live ns' /\ same_source ns ns' /\ n_normalized ns' = marked rep (n_normalized ns).
Proof.
  intros (A & S & T) Sc. destruct (char_segs 32%N (n_normalized ns)) as (segs & C & Fl & L & _).
  destruct (C20_replace ns _ segs [rep] A C) as (ns' & csegs & E & Q & S1 & M & S2 & A').
  destruct (C20_replace_text ns _ segs [rep] A C) as (ns2 & E2 & TX). rewrite E in E2. injection E2 as <-.
  assert (TN : n_normalized ns' = marked rep (n_normalized ns)) by (rewrite TX; apply (flags_text (fun c => N.eqb c 32)); assumption).
  exists ns'. split; [exact E|]. split; [|split; [exact Q|exact TN]]. split; [exact A'|]. split.
  - apply (solid_shows _ _ S1) in S. apply (solid_shows _ _ S2). clear -S M L. subst segs. revert L S. generalize (0, 0) as prev.
    induction csegs as [|[t f] csegs IH]; intros prev L S; [constructor|]. cbn [map fst snd concat spec_replace] in *. inversion L as [|? ? L1 L2]; subst.
    apply Forall_app in S. destruct S as [S1 S2]. apply Forall_app. split; [|apply IH; assumption]. destruct f; [|exact S1].
    specialize (L1 eq_refl). cbn [fst] in L1. unfold ctext in L1. rewrite map_length in L1. destruct t as [|[c a] [|]]; try discriminate.
    cbn [map]. constructor; [|constructor]. inversion S1; subst. assumption.
  - rewrite TN. unfold marked. apply Forall_map. eapply Forall_impl; [|exact T]. intros c Hc. cbn beta. destruct (N.eqb c 32); assumption.
Qed.

Lemma meta_closure rep scheme do_split : is_scalar rep = true ->
  closure_ok (metaspace_one rep scheme do_split)
    (fun s ps => exists puts, (scheme = SAlways -> puts = true) /\ (scheme = SNever -> puts = false) /\
        (if do_split then by_behavior (fun c => N.eqb c rep) MergedWithNext (meta_text rep puts s) ps
         else ps = nonempty_parts [meta_text rep puts s])).
Proof.
  intros Sc. split.
  - intros i ns L. unfold metaspace_one. destruct (replace_live ns rep L Sc) as (ns1 & -> & L1 & Q & T1). cbn [bind].
    set (puts := match scheme with SAlways => true | SFirst => fst (offsets_original ns1) =? 0 | SNever => false end).
    set (b := match scheme with
      | SAlways => negb (starts_with_char rep (n_normalized ns1))
      | SFirst => negb (starts_with_char rep (n_normalized ns1)) && (fst (offsets_original ns1) =? 0)
      | SNever => false end).
    assert (B : b = puts && negb (starts_with_char rep (n_normalized ns1))).
    { unfold b, puts. destruct scheme; cbn [andb]; [apply andb_comm|reflexivity|reflexivity]. }
    assert (P : exists ns2, (if b then n_prepend ns1 [rep] else Ok ns1) = Ok ns2 /\ live ns2 /\ n_normalized ns2 = meta_text rep puts (n_normalized ns)).
    { rewrite B. unfold meta_text. rewrite <- T1. destruct (prepend_live ns1 rep L1 Sc) as (ns2 & E2 & L2 & T2).
      destruct (n_normalized ns1) as [|c s] eqn:E; cbn [starts_with_char].
      - destruct (puts && negb false); [exists ns2; auto|exists ns1; auto].
      - destruct (puts && negb (N.eqb c rep)); [exists ns2; auto|exists ns1; auto]. }
    destruct P as (ns2 & -> & L2 & T2). cbn [bind]. 
    assert (HP : (scheme = SAlways -> puts = true) /\ (scheme = SNever -> puts = false)) by (unfold puts; split; intros ->; reflexivity).
    destruct do_split.
    + destruct (pred_split (fun c => N.eqb c rep) MergedWithNext (n_normalized ns2)) as (segs & C & R).
      destruct (split_live ns2 _ segs MergedWithNext L2 C) as (pieces & E & M & F). unfold char_find_matches. rewrite E. cbn [bind]. eexists. split; [reflexivity|].
      split; [apply keep_plain_Forall; exact F|]. exists puts. split; [apply HP|]. split; [apply HP|]. unfold texts. rewrite keep_nonempty_texts, M, <- T2. exact R.
    + cbn [bind]. eexists. split; [reflexivity|]. split; [apply keep_plain_Forall; constructor; [exact L2|constructor]|]. exists puts. split; [apply HP|]. split; [apply HP|].
      unfold texts. rewrite keep_nonempty_texts. cbn [map]. rewrite T2. reflexivity.
  - intros i ns new sp A H Hin Hne. unfold metaspace_one in H. apply bind_ok in H. destruct H as (ns1 & H1 & H). apply bind_ok in H. destruct H as (ns2 & H2 & H).
    apply bind_ok in H. destruct H as (l & H3 & H). injection H as <-. unfold plain_splits in Hin. apply in_map_iff in Hin. destruct Hin as (q & <- & Hq). cbn [sp_norm] in *.
    destruct (replace_space_ok ns rep A) as (ns1' & E1 & Q1 & A1 & _). rewrite H1 in E1. injection E1 as <-.
    assert (I2 : stays_inside ns ns2).
    { destruct (match scheme with SAlways => _ | _ => _ end).
      - destruct (prepend_source ns1 _ ns2 A1 H2) as [A2 Q2]. apply same_stays; [exact A2|]. destruct Q1, Q2. split; congruence.
      - injection H2 as <-. apply same_stays; assumption. }
    destruct do_split.
    + destruct (pred_split (fun c => N.eqb c rep) MergedWithNext (n_normalized ns2)) as (segs & C & _). eapply split_stays; eauto.
    + injection H3 as <-. destruct Hq as [<-|[]]. exact I2.
Qed.
