(** Proofs about the round trip from a text to ids and back. *)
From Verif Require Import Base ListFacts StrBytes Utf8 AMap EncodingModel EncodingSpec EncodingProofs NormModel NormSpec NormProofs NormProps
  BpeWordModel BpeWordSpec BpeWordProofs BpeModel BpeSpec BpeProofs BpeProps
  DecodersModel DecodersSpec DecodersProofs DecodersProofs2 DecodersProps PatternModel PatternSpec
  AddedModel AddedSpec AddedProofs AddedProofs2 AddedProofs3 AddedProofs4 AddedProps
  PreTokenizersModel PreTokenizersSpec PreTokenizersProofs PreTokenizersProofs2 PreTokenizersProofs3 PreTokenizersProps
  ProcessorsModel ProcessorsSpec ProcessorsProofs2 ProcessorsProofs3 ProcessorsProofs6 ProcessorsProps TokenizerModel EndToEndSpec EndToEndProofs RoundTripModel RoundTripSpec DecodersSpec
  PreTokModel PreTokSpec PreTokProofs PreTokProofs2 PreTokProps AddedModel.

(** ** Extraction of added tokens that take no blanks *)
Lemma ll_text pats b s ms : leftmost_longest pats b s ms -> forall st en i, In (st, en, i) ms ->
  exists x p y, s = x ++ p ++ y /\ st = b + blen x /\ en = st + blen p /\ In (p, i) pats /\ p <> [].
Proof.
  induction 1 as [b s N|b gap p i rest ms NP Ip _ _ _ IH]; intros st en j Hin; [destruct Hin|].
  destruct Hin as [E|Hin].
  - injection E as <- <- <-. exists gap, p, rest. auto.
  - destruct (IH _ _ _ Hin) as (x & q & y & -> & -> & -> & Iq & NQ). exists (gap ++ p ++ x), q, y.
    rewrite <- !app_assoc, !blen_app. repeat split; auto; lia.
Qed.

Lemma picks_in {A B} (P : A -> Prop) (R : A -> B -> Prop) la lb : picks P R la lb -> forall b, In b lb -> exists a, In a la /\ R a b.
Proof.
  induction 1 as [|a b la lb _ HR _ IH|a la lb _ _ IH]; intros b' Hin; [destruct Hin| |].
  - destruct Hin as [<-|Hin]; [exists a; split; [left; reflexivity|exact HR]|]. destruct (IH _ Hin) as (a' & I & G). exists a'. split; [right; exact I|exact G].
  - destruct (IH _ Hin) as (a' & I & G). exists a'. split; [right; exact I|exact G].
Qed.

(** No registered token takes blanks. *)
Definition no_strips (av : added_vocab) : Prop :=
  forall i t, aget N.eqb i (av_map_r av) = Some t -> at_lstrip t = false /\ at_rstrip t = false.

(** A split that shows an added token is named by it. *)
Definition named (pats : list (str * N)) (sp : split) : Prop :=
  match sp_tokens sp with
  | None => True
  | Some ts => exists i, ts = [mkTok i (n_normalized (sp_norm sp)) (0, blen (n_normalized (sp_norm sp)))] /\ In (n_normalized (sp_norm sp), i) pats
  end.

Lemma no_strips_safe sp av pats : no_strips av -> strip_safe sp av pats.
Proof. intros H. left. intros i t E. apply (H i t E). Qed.

Lemma pass_named sp wd av trie ns new : no_strips av -> (forall pats, trie = Some pats -> known_patterns av pats) -> aligned ns ->
  split_with_indices sp wd av trie ns = Ok new ->
  Forall (named (match trie with Some pats => pats | None => [] end)) new.
Proof.
  intros NS KP A H.
  destruct (split_with_indices_cuts sp wd av trie ns A) as (l & sps & E1 & E2 & F & _).
  { intros pats E. split; [apply no_strips_safe; exact NS|auto]. }
  rewrite H in E2. injection E2 as <-.
  assert (G : forall i a b, In (Some i, (a, b)) l -> exists x p y, n_normalized ns = x ++ p ++ y /\ a = blen x /\ b = a + blen p /\ In (p, i) (match trie with Some pats => pats | None => [] end)).
  { intros i a b Hin. unfold find_matches in E1. destruct (n_normalized ns) as [|c s0] eqn:Es; [cbn in E1; injection E1 as <-; destruct Hin as [Hin|[]]; discriminate|].
    destruct trie as [pats|]; [|cbn in E1; injection E1 as <-; destruct Hin as [Hin|[]]; discriminate].
    destruct (find_matches_spec sp wd av pats (c :: s0)) as (ms & l' & LL & E & X); [discriminate|apply no_strips_safe; exact NS|apply KP; reflexivity|].
    unfold find_matches in E. cbn [is_nil] in E, E1. rewrite E1 in E. injection E as <-.
    destruct X as (_ & _ & PK & _). apply token_spans_in in Hin.
    destruct (picks_in _ _ _ _ PK _ Hin) as ([[st en] j] & Hm & RP). unfold reported_as in RP. cbn [fst snd] in RP. destruct RP as (<- & t & left & right & Et & L1 & R1 & _ & _ & L0 & R0 & _).
    destruct (NS _ _ Et) as [S1 S2]. rewrite (L0 S1) in L1. rewrite (R0 S2) in R1.
    destruct (ll_text _ _ _ _ LL _ _ _ Hm) as (x & p & y & Eq & -> & -> & Ip & _).
    apply str_get_inv in L1. destruct L1 as (u & v & _ & B1 & B2). apply str_get_inv in R1. destruct R1 as (u' & v' & _ & B3 & B4). cbn [blen] in *.
    exists x, p, y. repeat split; [exact Eq|lia|lia|exact Ip]. }
  clear -G F. revert G. induction F as [|[o [a b]] s l sps [T1 T2] _ IH]; intros G; [constructor|]. constructor; [|apply IH; intros i a' b' Hin; apply (G i a' b'); right; exact Hin].
  unfold named. cbn [fst snd] in *. rewrite T2. destruct o as [i|]; [|exact Logic.I]. exists i. split; [reflexivity|].
  destruct (G i a b (or_introl eq_refl)) as (x & p & y & Eq & -> & -> & Ip). rewrite Eq, str_get_app in T1. injection T1 as <-. exact Ip.
Qed.

(** Parts of a living text live. *)
Lemma cut_live ns pieces : live ns -> cut_into (fun _ => False) ns pieces -> Forall live pieces.
Proof.
  intros (A & S & T) (marks & Sh & _ & F).
  assert (W : wf_seg (concat (map fst marks))).
  { destruct (aligned_cal _ A) as (cal & S' & W). rewrite (shows_inj _ _ _ Sh S'). eapply wf_cal_seg; eauto. }
  apply (solid_shows _ _ Sh) in S. destruct Sh as [Tx _]. rewrite Tx in T.
  assert (I : incl (kept_parts marks) (map fst marks)).
  { intros t Ht. unfold kept_parts in Ht. apply in_map_iff in Ht. destruct Ht as (x & <- & Hx). apply filter_In in Hx. apply in_map, Hx. }
  revert I. induction F as [|t p ts ps [P1 P2] _ IH]; intros I; [constructor|].
  constructor; [|apply IH; intros x Hx; apply I; right; exact Hx].
  assert (It : In t (map fst marks)) by (apply I; left; reflexivity).
  split; [exact P2|]. split.
  - eapply part_solid; [|..|exact P1]; [eapply wf_seg_part; eauto|]. rewrite Forall_concat, Forall_forall in S. apply S; exact It.
  - assert (E : n_normalized p = ctext t).
    { destruct t as [|[c a] r]; [destruct P1 as (-> & _); reflexivity|]. destruct P1 as (u & v & _ & _ & _ & _ & [-> _]). unfold ctext. rewrite map_map. reflexivity. }
    rewrite E. unfold text, ctext in *. rewrite Forall_map in *. rewrite Forall_concat, Forall_forall in T. apply T. exact It.
Qed.

(** A split after extraction: text that can be worked on, or an added token. *)
Definition extracted (av : added_vocab) (sp : split) : Prop :=
  n_normalized (sp_norm sp) <> [] /\ live (sp_norm sp) /\
  (forall ts, sp_tokens sp = Some ts -> exists i t,
     ts = [mkTok i (n_normalized (sp_norm sp)) (0, blen (n_normalized (sp_norm sp)))] /\
     aget N.eqb i (av_map_r av) = Some t /\ at_content t = n_normalized (sp_norm sp)).

Lemma pass_loop (P Q : split -> Prop) (f : nat -> nstring -> res unit (list split)) :
  (forall i sp new, Q sp -> sp_tokens sp = None -> f i (sp_norm sp) = Ok new -> Forall (fun x => n_normalized (sp_norm x) <> [] -> P x) new) ->
  (forall sp ts, Q sp -> sp_tokens sp = Some ts -> P sp) ->
  forall l i l', split_loop f i l = Ok l' -> Forall Q l -> Forall P l'.
Proof.
  intros Hf Hk. induction l as [|x l IH]; intros i l' H F; cbn [split_loop] in H; [injection H as <-; constructor|].
  inversion F as [|? ? Fx Fl]; subst. destruct (sp_tokens x) as [ts|] eqn:Et.
  - apply bind_ok in H. destruct H as (r & E1 & H). injection H as <-. constructor; [eapply Hk; eauto|eapply IH; eauto].
  - apply bind_ok in H. destruct H as (new & E0 & H). apply bind_ok in H. destruct H as (r & E1 & H). injection H as <-.
    apply Forall_app. split; [|eapply IH; eauto]. specialize (Hf _ _ _ Fx Et E0). unfold keep_nonempty. rewrite Forall_forall in *.
    intros y Hy. apply filter_In in Hy. destruct Hy as [Hy Hn]. apply Hf; [exact Hy|]. intros Z. rewrite Z in Hn. discriminate.
Qed.

Lemma pass_extracted sp wd av trie l l' :
  no_strips av ->
  (forall pats p i, trie = Some pats -> In (p, i) pats -> exists t, aget N.eqb i (av_map_r av) = Some t /\ at_content t = p) ->
  split_loop (fun _ ns => split_with_indices sp wd av trie ns) 0 l = Ok l' ->
  Forall (fun x => section_ok x /\ (sp_tokens x <> None -> extracted av x)) l -> Forall (extracted av) l'.
Proof.
  intros NS KP H F.
  assert (KN : forall pats, trie = Some pats -> known_patterns av pats).
  { intros pats E p i Hin. destruct (KP _ _ _ E Hin) as (t & X & _). eauto. }
  revert H F. apply pass_loop.
  - intros _ x new [SO _] Et E. specialize (SO Et). pose proof SO as LV. destruct SO as (A & S & T).
    pose proof (pass_named sp wd av trie (sp_norm x) new NS KN A E) as FN.
    destruct (split_with_indices_cuts sp wd av trie (sp_norm x) A) as (lm & sps & _ & E2 & _ & C).
    { intros pats EP. split; [apply no_strips_safe; exact NS|auto]. }
    rewrite E in E2. injection E2 as <-. pose proof (cut_live _ _ LV C) as FL. rewrite Forall_map in FL.
    rewrite Forall_forall in *. intros y Hy NE. specialize (FN y Hy). specialize (FL y Hy). unfold extracted.
    split; [exact NE|]. split; [exact FL|]. intros ts Ey. unfold named in FN. rewrite Ey in FN. destruct FN as (i & -> & Hin).
    destruct trie as [pats|]; [|destruct Hin]. destruct (KP pats _ _ eq_refl Hin) as (t & X & Y). exists i, t. auto.
  - intros x ts [_ G] Et. apply G. congruence.
Qed.

Lemma extract_extracted sp wd build m av offered taken s :
  model_ok m -> dense m -> added_history build m no_norm av offered taken -> no_strips av -> text s ->
  exists pt, extract_and_normalize sp wd av (fun ns => ns) s = Ok pt /\ inside_history s pt /\
    concat (split_texts pt) = s /\ Forall (extracted av) (pt_splits pt).
Proof.
  intros MO D H NS TX. pose proof (tries_history _ _ _ _ _ _ MO D H) as TI. pose proof (tries_known _ _ TI) as [K1 K2].
  destruct (extract_inside sp wd av (fun ns => ns) s) as (pt & E & I).
  { intros pats P. split; [apply no_strips_safe; exact NS|auto]. }
  { intros pats P. split; [apply no_strips_safe; exact NS|auto]. }
  { intros ns A. split; [exact A|]. repeat split; auto. }
  exists pt. split; [exact E|]. split; [exact I|].
  split; [eapply C27_extract_lossless; [exact MO|exact D|exact H| |exact E]; intros; apply no_strips_safe; exact NS|].
  unfold extract_and_normalize in E. apply bind_ok in E. destruct E as (pt1 & E1 & E2).
  unfold pt_split in E1, E2. apply bind_ok in E1. destruct E1 as (l1 & L1 & E1). injection E1 as <-. apply bind_ok in E2. destruct E2 as (l2 & L2 & E2). injection E2 as <-.
  cbn [pt_splits] in *. destruct TI as [T1 T2].
  assert (F1 : Forall (extracted av) l1).
  { eapply pass_extracted; [exact NS| |exact L1|].
    - intros pats p i EP Hin. apply (T1 _ _ _ EP Hin).
    - constructor; [|constructor]. cbn [sp_tokens sp_norm]. split; [|congruence]. intros _. split; [apply nfrom_aligned|]. split; [apply nfrom_solid|exact TX]. }
  eapply pass_extracted; [exact NS| |exact L2|].
  - intros pats p i EP Hin. destruct (T2 _ _ _ EP Hin) as (t & X & [Y|(f & [] & _)]). eauto.
  - eapply Forall_impl; [|exact F1]. intros x G. split; [intros _; apply G|auto].
Qed.

(** ** The byte-level pieces *)
Lemma nonempty_concat (l : list str) : concat (nonempty_parts l) = concat l.
Proof. induction l as [|[|c t] l IH]; cbn; [reflexivity|exact IH|]. f_equal. f_equal. exact IH. Qed.

Lemma class_runs_concat {K} (cls : char -> option K) prev s ps : class_runs cls prev s ps -> (forall c, cls c <> None) -> concat ps = s.
Proof. induction 1 as [|? c ? ? E|? ? ? ? ? _ _ _ _ IH]; intros H0; cbn [concat]; [reflexivity|destruct (H0 _ E)|]. rewrite IH by exact H0. reflexivity. Qed.
Lemma marks_apart_concat p s ps : marks_apart p s ps -> concat ps = s.
Proof. induction 1; cbn [concat]; [reflexivity|rewrite IHmarks_apart; reflexivity|rewrite IHmarks_apart; reflexivity]. Qed.
Lemma marks_last_concat p s ps : marks_last p s ps -> concat ps = s.
Proof. induction 1; cbn [concat]; [reflexivity|apply app_nil_r|]. rewrite IHmarks_last, <- app_assoc. reflexivity. Qed.
Lemma marks_first_concat p s ps : marks_first p s ps -> concat ps = s.
Proof. induction 1; cbn [concat]; [reflexivity|]. rewrite IHmarks_first. reflexivity. Qed.
Lemma marks_next_concat p s ps : marks_next p s ps -> concat ps = s.
Proof. destruct 1 as [s ps M|x s ps _ _ M]; cbn [concat]; rewrite (marks_first_concat _ _ _ M); reflexivity. Qed.
Lemma chunks_concat n s ps : chunks_of n s ps -> concat ps = s.
Proof. induction 1; cbn [concat]; [reflexivity|apply app_nil_r|]. rewrite IHchunks_of. reflexivity. Qed.
Lemma behavior_concat p b s ps : b <> Removed -> by_behavior p b s ps -> concat ps = s.
Proof.
  intros Hb H. destruct b; cbn [by_behavior] in H; [congruence|exact (marks_apart_concat _ _ _ H)|exact (marks_last_concat _ _ _ H)|exact (marks_next_concat _ _ _ H)|].
  eapply class_runs_concat; [exact H|discriminate].
Qed.

Lemma cutting_concat T p s ps : only_cutting p -> pieces_of T p s ps -> concat ps = s.
Proof.
  intros C H. destruct p; cbn [only_cutting] in C; try contradiction; cbn [pieces_of] in H.
  - destruct H as (segs & (E & _) & ->). rewrite nonempty_concat, spec_split_concat by exact C. rewrite E. destruct invert; [|reflexivity].
    unfold flipped. rewrite map_map. reflexivity.
  - destruct H as (q & _ & H). eapply behavior_concat; eauto.
  - eapply behavior_concat; [|exact H]. destruct individual; discriminate.
  - eapply chunks_concat; eauto.
Qed.

Lemma byte_image_concat l : concat (map byte_image l) = byte_image (concat l).
Proof. induction l as [|x l IH]; [reflexivity|]. cbn [map concat]. rewrite IH. unfold byte_image. rewrite encode_utf8_app, map_app. reflexivity. Qed.

Lemma byte_level_concat T ur s ps : pieces_of T (PtByteLevel false ur) s ps -> concat ps = byte_image s.
Proof. cbn [pieces_of]. intros (parts & _ & C & ->). rewrite byte_image_concat, nonempty_concat, C. reflexivity. Qed.

Lemma pipeline_concat T p s ps : byte_level_pipeline p -> pieces_of T p s ps -> concat ps = byte_image s.
Proof.
  destruct 1 as [ur|l ur F]; [apply byte_level_concat|]. cbn [pieces_of]. revert s ps. induction F as [|q l C _ IH]; intros s ps H; cbn [app] in H.
  - destruct H as (ms & gs & H & G & ->). rewrite <- (byte_level_concat _ _ _ _ H). f_equal. clear -G. induction G as [|? ? ? ? E _ IH]; [reflexivity|]. cbn [concat]. rewrite E, IH. reflexivity.
  - destruct H as (ms & gs & H & G & ->). rewrite <- (cutting_concat _ _ _ _ C H). clear -G IH.
    rewrite <- byte_image_concat. induction G as [|m g ms gs E _ IHG]; [reflexivity|]. cbn [concat map]. rewrite concat_app, (IH _ _ E), IHG. reflexivity.
Qed.

(** ** The words of the model *)
Lemma ranges_values s : forall toks pre rest,
  s = pre ++ rest -> ranges_from (blen pre) (map t_offsets toks) (blen s) ->
  (forall t, In t toks -> exists p x q, s = p ++ x ++ q /\ t_offsets t = (blen p, blen p + blen x) /\ t_value t = x) ->
  concat (map t_value toks) = rest /\ Forall (fun t => fst (t_offsets t) < snd (t_offsets t) <= blen s) toks.
Proof.
  induction toks as [|t toks IH]; intros pre rest E R V; cbn [map ranges_from concat] in *.
  - split; [|constructor]. rewrite E, blen_app in R. symmetry. apply blen_0. lia.
  - destruct (V t (or_introl eq_refl)) as (p & x & q & E1 & E2 & E3). rewrite E2 in R. destruct R as (R1 & R2 & R3).
    assert (p = pre /\ rest = x ++ q) as [-> ->].
    { pose proof (str_get_app [] p (x ++ q)) as G1. pose proof (str_get_app [] pre rest) as G2. cbn [app blen] in G1, G2. rewrite <- E1, R1 in G1. rewrite <- E, G1 in G2. injection G2 as ->.
      split; [reflexivity|]. rewrite E in E1. apply app_inv_head in E1. exact E1. }
    destruct (IH (pre ++ x) q) as [C F]; [rewrite <- app_assoc; exact E|rewrite blen_app; exact R3|intros u Hu; apply V; right; exact Hu|].
    rewrite C, E3. split; [reflexivity|]. constructor; [|exact F]. rewrite E2. cbn [fst snd]. rewrite E, !blen_app. cbn [fst snd] in R2. lia.
Qed.

Lemma plain_decorate vocab merges m a b x : built_facts vocab merges None m -> b_suffix m = None -> decorate m a b x = x.
Proof. intros B S. unfold decorate. rewrite (bf_prefix _ _ _ _ B), S. destruct a, b; reflexivity. Qed.

Lemma bpe_values pop vocab merges m draws s :
  heap_ok pop -> built vocab merges None m -> b_suffix m = None -> NoDup (map snd vocab) ->
  (forall c, In c s -> In [c] (map fst vocab)) ->
  exists toks, bpe_tokenize pop m draws s = Ok toks /\ concat (map t_value toks) = s /\
    Forall (fun t => In (t_value t, t_id t) vocab) toks /\
    Forall (fun t => fst (t_offsets t) < snd (t_offsets t) <= blen s) toks.
Proof.
  intros HP BT NS ND AL. pose proof BT as [D1 (d & unk & sf & fu & fb & ig & B)]. apply build_facts in B.
  assert (AK : forall p c q, s = p ++ c :: q -> known_char m (is_nil p) (is_nil q) c).
  { intros p c q ->. unfold known_char. rewrite (plain_decorate _ _ _ _ _ _ B NS). unfold b_id. rewrite (bf_vocab _ _ _ _ B).
    assert (Hc : In c (p ++ c :: q)) by (apply in_or_app; right; left; reflexivity). specialize (AL c Hc). apply in_map_iff in AL. destruct AL as ([y i] & Ey & Hin). cbn [fst] in Ey. subst y.
    rewrite (In_aget str_eqb str_eqb_eq _ _ _ D1 Hin). discriminate. }
  assert (OK : exists toks, bpe_tokenize pop m draws s = Ok toks).
  { unfold bpe_tokenize, tokenize_plain. destruct (is_nil s); [eauto|].
    destruct (known_word pop vocab merges None m no_draw s HP B AK) as (t1 & _ & _ & E1 & _).
    destruct (known_word pop vocab merges None m draws s HP B AK) as (t2 & _ & _ & E2 & _).
    rewrite E1, E2. destruct (b_dropout m), (if b_ignore_merges m then b_id m s else None); eauto. }
  destruct OK as (toks & H). exists toks. split; [exact H|].
  destruct (C33_cover _ _ _ _ _ _ _ _ HP BT H) as (e & RG & CV). rewrite CV in RG by (intros p c q E; left; apply AK; exact E).
  destruct (ranges_values s toks [] s eq_refl RG) as [C F].
  { intros t Ht. destruct (C33_known_word _ _ _ _ _ _ _ _ _ HP BT ND AK H Ht) as (pre & x & post & E1 & E2 & E3). exists pre, x, post. split; [exact E1|]. split; [exact E2|].
    destruct E3 as [E3|(_ & -> & E3)]; [|exact E3]. rewrite E3. unfold in_place. apply (plain_decorate _ _ _ _ _ _ B NS). }
  split; [exact C|]. split; [|exact F]. apply Forall_forall. intros t Ht. eapply C33_values; eauto.
Qed.

(** ** Names of ids *)
Definition token_named (m : model_vocab) (av : added_vocab) (t : token) : Prop := tk_id_to_token m av (t_id t) = Some (t_value t).

Lemma added_named build m av offered taken i t :
  model_ok m -> dense m -> added_history build m no_norm av offered taken ->
  aget N.eqb i (av_map_r av) = Some t -> tk_id_to_token m av i = Some (at_content t).
Proof.
  intros MO D H E. unfold tk_id_to_token, av_simple_id_to_token. rewrite E. destruct (aget N.eqb i (av_cache av)) as [n|] eqn:EC; [|reflexivity].
  destruct (cache_history _ _ _ _ _ _ MO D H _ _ EC) as (t' & f & _ & [] & _).
Qed.

Lemma bpe_model_ok vocab merges prefix m : built vocab merges prefix m -> NoDup (map snd vocab) -> model_ok (bpe_vocabulary m).
Proof.
  intros [D1 (d & unk & sf & fu & fb & ig & B)] D2. apply build_facts in B.
  assert (R : forall t i, b_id m t = Some i <-> In (t, i) vocab).
  { intros t i. unfold b_id. rewrite (bf_vocab _ _ _ _ B). split; intros H; [apply (aget_In str_eqb str_eqb_eq); exact H|apply (In_aget str_eqb str_eqb_eq); assumption]. }
  constructor; cbn [bpe_vocabulary mv_vocab mv_token_to_id mv_id_to_token mv_size].
  - rewrite (bf_vocab _ _ _ _ B). exact D1.
  - intros t i. rewrite (bf_vocab _ _ _ _ B). apply R.
  - intros t i. rewrite R. apply (b_token_inj _ _ _ _ B). exact D2.
  - reflexivity.
Qed.

(** ** From splits to ids *)
Definition tokens_in (sp : split) : list token := match sp_tokens sp with Some ts => ts | None => [] end.

Lemma rows_ids orig ch w ty : forall l i r, encoding_rows orig ch w ty i l = Ok r ->
  map (fun r => let '(id, _, _, _, _) := r in id) r = map t_id (flat_map tokens_in l).
Proof.
  induction l as [|sp l IH]; intros i r H; cbn [encoding_rows] in H; [injection H as <-; reflexivity|].
  apply bind_ok in H. destruct H as (ts & Et & H). apply bind_ok in H. destruct H as (r1 & E1 & H). apply bind_ok in H. destruct H as (r2 & E2 & H). injection H as <-.
  cbn [flat_map]. rewrite !map_app. f_equal; [|exact (IH _ _ E2)]. unfold tokens_in. destruct (sp_tokens sp) as [ts'|]; [|discriminate]. injection Et as ->.
  apply map_res_ok in E1. clear -E1. induction E1 as [|a b l l' E _ IH]; [reflexivity|]. cbn [map]. rewrite IH. f_equal.
  unfold token_row in E. apply bind_ok in E. destruct E as (o & _ & E). injection E as <-. reflexivity.
Qed.

Lemma into_encoding_ids pt w ty ot e : into_encoding pt w ty ot = Ok e -> ids e = map t_id (flat_map tokens_in (pt_splits pt)).
Proof.
  unfold into_encoding. destruct (pt_splits pt) as [|sp l] eqn:El; cbn [is_nil]; [intros H; injection H as <-; reflexivity|]. rewrite <- El.
  destruct (negb _); [discriminate|]. destruct ot; intros H.
  - apply bind_ok in H. destruct H as (r & Hr & H). injection H as <-. cbn [from_rows ids]. exact (rows_ids _ _ _ _ _ _ _ Hr).
  - apply bind_ok in H. destruct H as (r & Hr & H). injection H as <-. cbn [from_rows ids]. exact (rows_ids _ _ _ _ _ _ _ Hr).
  - injection H as <-. cbn [from_rows ids]. rewrite map_map. reflexivity.
Qed.

Lemma map_res_split {E A B} (f : A -> res E B) : forall l1 l2 o1 o2, map_res f l1 = Ok o1 -> map_res f l2 = Ok o2 -> map_res f (l1 ++ l2) = Ok (o1 ++ o2).
Proof.
  induction l1 as [|x l1 IH]; intros l2 o1 o2 H1 H2; cbn [map_res app] in *; [injection H1 as <-; exact H2|].
  apply bind_ok in H1. destruct H1 as (b & E1 & H1). apply bind_ok in H1. destruct H1 as (bs & E2 & H1). injection H1 as <-.
  rewrite E1. cbn [bind]. rewrite (IH _ _ _ E2 H2). reflexivity.
Qed.

(** Tokenising a list of splits that were made from sections: [Q] relates a
    section to the tokens of its splits. *)
Lemma tokenize_groups (f : nstring -> res unit (list token)) (Q : split -> list token -> Prop) (R : split -> split -> Prop) l gs :
  Forall2 (fun sp g => exists g', map_res (tokenize_one f) g = Ok g' /\ Q sp (flat_map tokens_in g') /\ Forall2 R g g') l gs ->
  exists l', map_res (tokenize_one f) (concat gs) = Ok l' /\ Forall2 R (concat gs) l' /\
    exists ts, flat_map tokens_in l' = concat ts /\ Forall2 Q l ts.
Proof.
  induction 1 as [|sp g l gs (g' & E & HQ & HR) _ (l' & E' & HR' & ts & ET & F)].
  - exists []. split; [reflexivity|]. split; [constructor|]. exists []. split; [reflexivity|constructor].
  - exists (g' ++ l'). cbn [concat]. split; [apply map_res_split; assumption|]. split; [apply Forall2_app; assumption|].
    exists (flat_map tokens_in g' :: ts). rewrite flat_map_app, ET. split; [reflexivity|]. constructor; assumption.
Qed.

(** What became of a split: same text, with tokens that fit. *)
Definition tokenised (a b : split) : Prop :=
  sp_norm b = sp_norm a /\ has_tokens b = true /\ Forall (token_fits (sp_norm b)) (tokens_in b).

Lemma tokenised_ready pt l' s : inside_history s pt -> Forall2 tokenised (pt_splits pt) l' -> ready (mkPre (pt_original pt) l').
Proof.
  intros I F. destruct (C21_inside_any_history _ _ I) as [O L]. split; cbn [pt_original pt_splits].
  - rewrite O. revert L. induction F as [|a b la lb (E1 & E2 & _) _ IH]; intros L; [constructor|]. inversion L as [|? ? (A & Lc & _) L']; subst.
    constructor; [rewrite E1; auto|auto].
  - intros i ns t Hin. destruct (all_tokens_in _ _ _ _ _ Hin) as (sp & ts & Hsp & -> & Et & Ht).
    assert (FF : Forall (fun b => Forall (token_fits (sp_norm b)) (tokens_in b)) l').
    { clear -F. induction F as [|a b la lb (_ & _ & E3) _ IH]; constructor; assumption. }
    rewrite Forall_forall in FF. specialize (FF sp Hsp). unfold tokens_in in FF. rewrite Et in FF. rewrite Forall_forall in FF. auto.
Qed.

Lemma ready_encodes pt w ty ot : ready pt -> Forall (fun sp => solid (sp_norm sp)) (pt_splits pt) -> exists e, into_encoding pt w ty ot = Ok e.
Proof.
  intros R SL. destruct (C22_rows pt w ty R) as (e & E & _ & _ & _ & F). destruct ot; [eauto| |].
  - destruct (C23_encoding pt w ty e R E) as (ec & Ec & _); [|eauto].
    assert (A : forall x, In x (all_tokens 0 (pt_splits pt)) -> token_fits (snd (fst x)) (snd x) /\ aligned (snd (fst x)) /\ solid (snd (fst x))).
    { intros [[i ns] t] Hin. cbn [fst snd]. destruct R as [R1 R2]. split; [eapply R2; exact Hin|]. destruct (all_tokens_in _ _ _ _ _ Hin) as (sp & ts & Hsp & -> & _). rewrite Forall_forall in R1, SL.
      split; [apply (R1 sp Hsp)|apply (SL sp Hsp)]. }
    clear -F A. induction F as [|[[i ns] t] r la lb (_ & S & _ & _ & _ & B) _ IH]; [constructor|]. constructor; [|apply IH; intros x Hx; apply A; right; exact Hx]. left.
    destruct (A _ (or_introl eq_refl)) as (TF & AL & SO). cbn [fst snd] in TF, AL, SO. destruct S as (x & y & S1 & S2 & S3 & S4). unfold token_fits in TF.
    assert (N1 : fst (r_off r) - n_shift ns < y) by (unfold solid in SO; rewrite Forall_forall in SO; exact (SO _ (nth_error_In _ _ S1))).
    assert (N2 : y <= snd (r_off r) - n_shift ns) by (assert (LE : fst (t_offsets t) <= snd (t_offsets t) - 1) by lia; apply (aligned_sorted _ AL _ _ _ _ _ _ LE S1 S2)).
    apply is_boundary_le in B. lia.
  - unfold into_encoding. rewrite (ready_all _ R). cbn [negb]. destruct (is_nil _); eauto.
Qed.

(** ** Decoding *)
Lemma named_tokens m av l : Forall (token_named m av) l -> decode_tokens m av false (map t_id l) = map t_value l.
Proof.
  induction 1 as [|t l H _ IH]; [reflexivity|]. unfold token_named in H. unfold decode_tokens in *. cbn [map flat_map]. rewrite H, IH. reflexivity.
Qed.

Lemma reads_back_block c : reads_back c -> block [c] c.
Proof.
  intros (T & [P|(x & I & N)]); [|eapply block_foreign; eauto]. apply block_text; [exact T|]. cbn [concat]. rewrite app_nil_r. unfold byte_image. clear T.
  induction P as [|x c H _ IH]; [reflexivity|]. unfold encode_utf8 in *. cbn [flat_map]. rewrite map_app, <- IH.
  replace (encode_char x) with [x] by (unfold encode_char; replace (N.ltb x 128) with true by lia; reflexivity).
  cbn [map app]. f_equal. unfold byte_char. replace (printable_byte x) with true by (unfold printable_byte; lia). reflexivity.
Qed.

(** ** The tokens of a text *)
Section byte_level_bpe.
  Context (T : tables) (p : pre_tokenizer) (pop : list merge -> option (merge * list merge)).
  Context (vocab : list (str * N)) (merges : list (str * str)) (m : bpe) (draws : str -> nat -> bool).
  Context (build : list (str * N) -> bool) (av : added_vocab) (offered taken : list added_token).
  Context (HT : sane T) (HU : usable p) (HL : byte_level_pipeline p) (HP : heap_ok pop).
  Context (BT : built vocab merges None m) (NS : b_suffix m = None) (ND : NoDup (map snd vocab)) (FA : full_alphabet vocab).
  Context (DN : dense (bpe_vocabulary m)) (AH : added_history build (bpe_vocabulary m) no_norm av offered taken) (FT : faithful_added av).

  Let f : nstring -> res unit (list token) := fun ns => bpe_model pop m draws (n_normalized ns).

  Definition section_tokens (sp : split) (ts : list token) : Prop :=
    Forall (token_named (bpe_vocabulary m) av) ts /\ block (map t_value ts) (n_normalized (sp_norm sp)).

  Lemma vocab_named t : In (t_value t, t_id t) vocab -> token_named (bpe_vocabulary m) av t.
  Proof.
    intros H. pose proof (bpe_model_ok _ _ _ _ BT ND) as MO.
    eapply C25_round_trip_without_normalizer; [exact MO|exact DN|exact AH|]. eapply C25_model_tokens_keep_their_id; [exact AH|].
    apply (mo_read _ MO). pose proof BT as [D1 (d & unk & sf & fu & fb & ig & B)]. apply build_facts in B. cbn [bpe_vocabulary mv_vocab]. rewrite (bf_vocab _ _ _ _ B). exact H.
  Qed.

  Lemma pieces_tokens : forall g, Forall (fun sp => sp_tokens sp = None) g ->
    (forall c, In c (concat (map (fun sp => n_normalized (sp_norm sp)) g)) -> In [c] (map fst vocab)) ->
    exists g', map_res (tokenize_one f) g = Ok g' /\ Forall2 tokenised g g' /\
      Forall (fun t => In (t_value t, t_id t) vocab) (flat_map tokens_in g') /\
      concat (map t_value (flat_map tokens_in g')) = concat (map (fun sp => n_normalized (sp_norm sp)) g).
  Proof.
    induction 1 as [|sp g Hn _ IH]; intros AL; [exists []; repeat split; constructor|]. cbn [map concat] in AL.
    destruct IH as (g' & E & F & V & C); [intros c Hc; apply AL, in_or_app; right; exact Hc|].
    destruct (bpe_values pop vocab merges m (draws (n_normalized (sp_norm sp))) (n_normalized (sp_norm sp)) HP BT NS ND) as (toks & E1 & C1 & V1 & O1).
    { intros c Hc. apply AL, in_or_app. left. exact Hc. }
    exists (mkSplit (sp_norm sp) (Some toks) :: g'). cbn [map_res]. unfold tokenize_one at 1. rewrite Hn. unfold f at 1, bpe_model. rewrite E1. cbn [bind]. rewrite E. cbn [bind].
    split; [reflexivity|]. split; [constructor; [|exact F]; split; [reflexivity|]; split; [reflexivity|exact O1]|].
    cbn [flat_map]. unfold tokens_in at 1 3. cbn [sp_tokens]. split; [apply Forall_app; auto|]. rewrite map_app, concat_app, C1, C. reflexivity.
  Qed.

  Lemma section_pass sp g : extracted av sp -> piece_group T p sp g ->
    exists g', map_res (tokenize_one f) g = Ok g' /\ section_tokens sp (flat_map tokens_in g') /\ Forall2 tokenised g g'.
  Proof.
    intros (NE & SO & AD) G. unfold piece_group in G. destruct (sp_tokens sp) as [ts|] eqn:Et.
    - subst g. exists [sp]. cbn [map_res]. unfold tokenize_one. rewrite Et. cbn [bind]. split; [reflexivity|].
      destruct (AD ts eq_refl) as (i & t & -> & E & C). cbn [flat_map]. rewrite app_nil_r. split.
      + unfold tokens_in. rewrite Et. split.
        * constructor; [|constructor]. unfold token_named. cbn [t_id t_value]. rewrite <- C. eapply added_named; eauto. eapply bpe_model_ok; eauto.
        * cbn [map t_value]. destruct (FT _ _ E) as (_ & _ & RB). rewrite C in RB. apply reads_back_block. exact RB.
      + constructor; [|constructor]. split; [reflexivity|]. split; [unfold has_tokens; rewrite Et; reflexivity|]. unfold tokens_in. rewrite Et.
        constructor; [|constructor]. unfold token_fits. cbn [t_offsets fst snd]. unfold n_len. destruct (n_normalized (sp_norm sp)) as [|c x]; [congruence|]. cbn [blen]. pose proof (len_utf8_pos c). lia.
    - destruct G as [FN PC]. pose proof (pipeline_concat _ _ _ _ HL PC) as CC. destruct SO as (_ & _ & TX).
      destruct (pieces_tokens g FN) as (g' & E & F & V & C).
      { rewrite CC. intros c Hc. unfold byte_image in Hc. apply in_map_iff in Hc. destruct Hc as (b & <- & Hb). apply FA. pose proof (encode_utf8_range _ TX) as R. rewrite Forall_forall in R. auto. }
      exists g'. split; [exact E|]. split; [|exact F]. split.
      + eapply Forall_impl; [|exact V]. intros t. apply vocab_named.
      + apply block_text; [exact TX|]. rewrite C. exact CC.
  Qed.

  (** The steps of the encoding of a text, up to the tokens. *)
  Lemma text_tokens sp wd s : text s ->
    exists p1 p2 l3 ts, extract_and_normalize sp wd av (fun ns => ns) s = Ok p1 /\ pre_tokenize T p p1 = Ok p2 /\
      pt_tokenize f p2 = Ok (mkPre (pt_original p2) l3) /\ ready (mkPre (pt_original p2) l3) /\ Forall (fun sp0 => solid (sp_norm sp0)) l3 /\
      flat_map tokens_in l3 = concat ts /\ Forall2 section_tokens (pt_splits p1) ts /\ concat (split_texts p1) = s.
  Proof.
    intros TX.
    assert (NST : no_strips av) by (intros i t E; destruct (FT i t E) as (A & B & _); auto).
    destruct (extract_extracted sp wd build (bpe_vocabulary m) av offered taken s) as (p1 & E1 & I1 & C1 & X1); auto; [eapply bpe_model_ok; eauto|].
    destruct (C65_pieces T p s p1 HT HU I1) as (p2 & gs & E2 & G2 & F2 & I2 & L2).
    { eapply Forall_impl; [|exact X1]. intros x G _. apply G. }
    assert (SL : Forall (fun sp0 => solid (sp_norm sp0)) (pt_splits p2)).
    { clear -F2 X1 L2 G2. rewrite G2 in *. clear G2. revert X1 L2. induction F2 as [|a b la lb H _ IH]; intros X1 L2; [constructor|]. inversion X1 as [|? ? Xa Xl]; subst.
      cbn [concat] in *. apply Forall_app in L2. destruct L2 as [L1 L2]. apply Forall_app. split; [|auto]. unfold piece_group in H. destruct (sp_tokens a) as [ts|].
      - subst b. constructor; [apply Xa|constructor].
      - destruct H as [H _]. rewrite Forall_forall in *. intros x Hx. apply (L1 x Hx), H, Hx. }
    assert (FG : Forall2 (fun sp0 g => exists g', map_res (tokenize_one f) g = Ok g' /\ section_tokens sp0 (flat_map tokens_in g') /\ Forall2 tokenised g g') (pt_splits p1) gs).
    { clear -F2 X1 HP BT NS ND FA DN AH FT HL. revert X1. induction F2 as [|a b la lb H _ IH]; intros X1; [constructor|]. inversion X1; subst. constructor; [apply section_pass; assumption|auto]. }
    destruct (tokenize_groups f section_tokens tokenised _ _ FG) as (l3 & E3 & F3 & ts & C3 & S3). rewrite <- G2 in E3, F3.
    exists p1, p2, l3, ts. split; [exact E1|]. split; [exact E2|]. split; [unfold pt_tokenize; rewrite E3; reflexivity|].
    split; [eapply tokenised_ready; eauto|]. split; [|auto].
    clear -F3 SL. induction F3 as [|a b la lb (E & _) _ IH]; [constructor|]. inversion SL; subst. constructor; [rewrite E; assumption|auto].
  Qed.

  Lemma text_ids sp wd t ty ot s : text s ->
    tz_space t = sp -> tz_word t = wd -> tz_added t = av -> tz_normalizer t = (fun ns => ns) ->
    tz_pre_tokenizer t = Some (pre_tokenize T p) -> tz_model t = bpe_model pop m draws -> tz_truncation t = None ->
    (exists e, encode_part t ty ot None s = Ok e) /\
    (forall e, encode_part t ty ot None s = Ok e -> exists toks, ids e = map t_id toks /\
       Forall (token_named (bpe_vocabulary m) av) toks /\
       exists blocks outs, map t_value toks = concat blocks /\ concat outs = s /\ Forall2 block blocks outs).
  Proof.
    intros TX <- <- H3 H4 H5 H6 H7. destruct (text_tokens (tz_space t) (tz_word t) s TX) as (p1 & p2 & l3 & ts & E1 & E2 & E3 & R & SL & C & F & CS).
    assert (EP : encode_part t ty ot None s = into_encoding (mkPre (pt_original p2) l3) None ty ot).
    { unfold encode_part. rewrite H3, H4, E1. cbn [bind]. unfold do_pre_tokenize. rewrite H5, E2. cbn [bind]. unfold do_tokenize, token_limit. rewrite H7.
      unfold tokenize_in. rewrite H6. fold f. rewrite E3. reflexivity. }
    rewrite EP. split; [apply ready_encodes; [exact R|exact SL]|]. intros e He. apply into_encoding_ids in He. cbn [pt_splits] in He.
    exists (flat_map tokens_in l3). split; [exact He|]. rewrite C. split.
    - apply Forall_concat. clear -F. induction F as [|a b la lb [H _] _ IH]; constructor; assumption.
    - exists (map (map t_value) ts), (split_texts p1). split; [rewrite concat_map; reflexivity|]. split; [exact CS|].
      unfold split_texts. clear -F. induction F as [|a b la lb [_ H] _ IH]; [constructor|]. cbn [map]. constructor; assumption.
  Qed.
End byte_level_bpe.

(** ** Post-processing *)
Lemma ids_of_rows e : same_lengths e -> ids e = map r_id (rows e).
Proof. intros H. rewrite (of_rows_eq e H) at 1. reflexivity. Qed.

Lemma decode_app m av skip a b : decode_tokens m av skip (a ++ b) = decode_tokens m av skip a ++ decode_tokens m av skip b.
Proof. unfold decode_tokens. apply flat_map_app. Qed.

Lemma specials_skipped m av l : Forall (special_id m av) l -> decode_tokens m av true l = [].
Proof.
  induction 1 as [|i l (c & E & S) _ IH]; [reflexivity|]. unfold decode_tokens in *. cbn [flat_map]. rewrite E, S. cbn [negb orb app]. exact IH.
Qed.

Lemma ordinary_kept m av l : Forall (fun i => ~ special_id m av i) l -> decode_tokens m av true l = decode_tokens m av false l.
Proof.
  induction 1 as [|i l N _ IH]; [reflexivity|]. unfold decode_tokens in *. cbn [flat_map]. rewrite IH. f_equal.
  destruct (tk_id_to_token m av i) as [c|] eqn:E; [|reflexivity]. destruct (av_is_special av c) eqn:S; [|reflexivity]. destruct N. exists c. auto.
Qed.

Definition added_in (segs : list segment) : list N := flat_map (fun seg => match seg with Added toks _ => map snd toks | Input _ _ => [] end) segs.
Definition inputs_in (segs : list segment) : list nat := flat_map (fun seg => match seg with Added _ _ => [] | Input s _ => [s] end) segs.

Lemma layout_decoded m av input segs : Forall (special_id m av) (added_in segs) ->
  decode_tokens m av true (map r_id (map snd (lay_out input segs))) =
  flat_map (fun s => decode_tokens m av true (map r_id (input s))) (inputs_in segs).
Proof.
  induction segs as [|seg segs IH]; intros F; [reflexivity|]. unfold added_in in F. cbn [flat_map] in F. apply Forall_app in F. destruct F as [F1 F2]. specialize (IH F2).
  unfold lay_out, inputs_in in *. cbn [flat_map]. rewrite !map_app, decode_app, flat_map_app, IH. f_equal. destruct seg as [toks ty|s ty].
  - cbn [flat_map]. rewrite !map_map. apply specials_skipped. rewrite Forall_map in F1 |- *. cbn. exact F1.
  - cbn [flat_map]. rewrite app_nil_r. rewrite !map_map. cbn. reflexivity.
Qed.

Lemma seen_ids is_ws trim aps e : same_lengths e -> map r_id (seen is_ws trim aps e) = map r_id (rows e).
Proof.
  intros S. unfold seen. destruct trim; [|reflexivity]. destruct (C54_within is_ws aps e S) as (S' & L & _ & _ & R).
  rewrite <- (ids_of_rows _ S'), <- (ids_of_rows _ S). reflexivity.
Qed.

Lemma template_inputs sp : forall tpl segs, template_layout sp tpl = Some segs -> inputs_in segs = used tpl.
Proof.
  induction tpl as [|[s ty|n ty] tpl IH]; intros segs H; cbn [template_layout] in H.
  - injection H as <-. reflexivity.
  - destruct (template_layout sp tpl); [|discriminate]. injection H as <-. cbn. f_equal. apply IH. reflexivity.
  - destruct (get_special n sp); [|discriminate]. destruct (template_layout sp tpl); [|discriminate]. injection H as <-. cbn. apply IH. reflexivity.
Qed.

Lemma around_decoded m av is_ws p added e : adds_around p added -> fresh 0 e -> Forall (special_id m av) added ->
  exists out, process is_ws p e None true = Ok out /\ decode_tokens m av true (ids out) = decode_tokens m av true (ids e).
Proof.
  intros A F S. pose proof (fresh_parallel _ _ F) as P. pose proof (same_lengths_parallel _ P) as SE.
  assert (AC : accurate p) by (destruct A; [apply accurate_simple; constructor|apply accurate_simple; constructor|apply accurate_simple; constructor|eapply accurate_template; eauto]).
  destruct (C45_accurate is_ws p e None true AC P I) as (out & E & PO & _). exists out. split; [exact E|].
  rewrite (ids_of_rows out) by (apply same_lengths_parallel; exact PO). rewrite (ids_of_rows e SE).
  destruct A as [sep cls|sep cls trim aps|trim aps|bld tm segs H1 H2 H3 H4 H5].
  - destruct (C46_bert is_ws sep cls e None F I) as (out' & E' & (Sh & _) & _). rewrite E in E'. injection E' as <-. rewrite Sh.
    rewrite layout_decoded by exact S. cbn. rewrite app_nil_r. reflexivity.
  - destruct (C46_roberta is_ws sep cls trim aps e None F I) as (out' & E' & (Sh & _) & _). rewrite E in E'. injection E' as <-. rewrite Sh.
    rewrite layout_decoded by exact S. cbn [inputs_in roberta_layout flat_map app both inputs option_map]. rewrite app_nil_r, seen_ids by exact SE. reflexivity.
  - destruct (C46_byte_level is_ws trim aps e None true F I) as (out' & E' & (Sh & _) & _). rewrite E in E'. injection E' as <-. rewrite Sh.
    rewrite layout_decoded by constructor. cbn [inputs_in bare_layout flat_map app both inputs option_map]. rewrite app_nil_r, seen_ids by exact SE. reflexivity.
  - destruct (C46_template is_ws bld tm e None true segs H1 H2 F I H3 H5) as (out' & E' & (Sh & _) & _). rewrite E in E'. injection E' as <-. rewrite Sh.
    rewrite layout_decoded by exact S. rewrite (template_inputs _ _ _ H5). cbn [uses_once] in H3. rewrite H3. cbn. rewrite app_nil_r. reflexivity.
Qed.
