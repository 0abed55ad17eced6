(** Every normalizer against its specification. *)
From Coq Require Import ZArith Sorting.Sorted.
From Verif Require Import Base ListFacts StrBytes Utf8 NormModel NormSpec NormProofs NormProofs2 NormProofs3 NormProofs4 NormProofs5 NormProofs6
  PatternModel PatternSpec NormProps ByteLevelModel DecodersModel DecodersSpec DecodersProofs2 NormalizersModel NormalizersSpec.

Lemma normalizer_ind' (P : normalizer -> Prop) :
  (forall a b c d, P (NBert a b c d)) -> (forall l r, P (NStrip l r)) -> P NStripAccents -> P NNFC -> P NNFD -> P NNFKC -> P NNFKD ->
  (forall l, Forall P l -> P (NSequence l)) -> P NLowercase -> P NNmt -> (forall c g, P (NPrecompiled c g)) ->
  (forall f c, P (NReplace f c)) -> (forall s, P (NPrepend s)) -> P NByteLevel -> forall n, P n.
Proof.
  intros H1 H2 H3 H4 H5 H6 H7 H8 H9 H10 H11 H12 H13 H14. fix IH 1. intros [ | | | | | | |l| | | | | | ];
    [apply H1|apply H2|exact H3|exact H4|exact H5|exact H6|exact H7| |exact H9|exact H10|apply H11|apply H12|apply H13|exact H14].
  apply H8. induction l as [|n l IHl]; constructor; [apply IH|exact IHl].
Qed.

Lemma shows_inj c : forall c', ctext c = ctext c' -> cbytes c = cbytes c' -> c = c'.
Proof.
  induction c as [|[x a] c IH]; intros [|[x' a'] l] E1 E2; try discriminate; [reflexivity|].
  rewrite !ctext_cons in E1. rewrite !cbytes_cons in E2. cbn [fst snd] in *. injection E1 as <- E1.
  pose proof (len_utf8_pos x). destruct (app_split_len _ _ _ _ E2 ltac:(rewrite !repeat_length; reflexivity)) as [E3 E4].
  destruct (len_utf8 x); [lia|]. injection E3 as -> _. f_equal. apply IH; assumption.
Qed.

Definition good (orig : str) (cal : ranged) : Prop := wf_cal orig cal /\ csolid cal /\ text (ctext cal).

(** [f] takes a good text to a good one related by [R]. *)
Definition step (f : nstring -> res unit nstring) (R : ranged -> ranged -> Prop) : Prop :=
  forall orig cal sh, good orig cal ->
    exists cal', f (show orig cal sh) = Ok (show orig cal' sh) /\ good orig cal' /\ R cal cal'.

Lemma step_id : step (fun ns => Ok ns) (fun c c' => c' = c).
Proof. intros orig cal sh G. exists cal. auto. Qed.

Lemma step_seq f g R Q : step f R -> step g Q ->
  step (fun ns => let! ns := f ns in g ns) (fun c c' => exists m, R c m /\ Q m c').
Proof.
  intros H1 H2 orig cal sh G. destruct (H1 orig cal sh G) as (m & E1 & G1 & R1). destruct (H2 orig m sh G1) as (c & E2 & G2 & R2).
  exists c. rewrite E1. cbn [bind]. eauto 6.
Qed.

Lemma step_when (b : bool) f R : step f R -> step (fun ns => if b then f ns else Ok ns) (when b R).
Proof. intros H. destruct b; [exact H|exact step_id]. Qed.

Lemma step_weaken f (R Q : ranged -> ranged -> Prop) : step f R -> (forall c c', R c c' -> Q c c') -> step f Q.
Proof. intros H I orig cal sh G. destruct (H orig cal sh G) as (c & E & G' & HR). eauto 6. Qed.

Lemma step_ext f g R : (forall orig cal sh, good orig cal -> f (show orig cal sh) = g (show orig cal sh)) -> step f R -> step g R.
Proof. intros E H orig cal sh G. rewrite <- (E orig cal sh G). exact (H orig cal sh G). Qed.

(** Operations covered by [safe_step_ok]. *)
Lemma op_step (op : norm_op) (g : ranged -> ranged) :
  (forall orig cal sh, good orig cal -> safe_op (show orig cal sh) op /\
     apply_norm_op (show orig cal sh) op = Ok (show orig (g cal) sh) /\ text (ctext (g cal))) ->
  step (fun ns => apply_norm_op ns op) (fun c c' => c' = g c).
Proof.
  intros H orig cal sh G. destruct (H orig cal sh G) as (S & E & TX). destruct G as (W & CS & _).
  destruct (safe_step_ok orig cal sh op W CS S) as (o & c & k & E' & W' & S').
  rewrite E in E'. injection E' as E1 E2 E3 E4. pose proof (shows_inj _ _ E2 E3) as E5. subst c o.
  exists (g cal). split; [exact E|]. split; [|reflexivity]. split; [exact W'|]. split; assumption.
Qed.

Lemma ctext_keeping keep cal : ctext (keeping keep cal) = filter keep (ctext cal).
Proof. unfold keeping, ctext. induction cal as [|ca cal IH]; [reflexivity|]. cbn [filter map]. destruct (keep (fst ca)); cbn [map]; rewrite IH; reflexivity. Qed.
Lemma ctext_rewriting f cal : ctext (rewriting f cal) = map f (ctext cal).
Proof. unfold rewriting, ctext. rewrite !map_map. reflexivity. Qed.
Lemma ctext_expanding f cal : ctext (expanding f cal) = flat_map f (ctext cal).
Proof.
  unfold expanding, ctext. induction cal as [|ca cal IH]; [reflexivity|]. cbn [flat_map map]. rewrite map_app, IH, map_map. f_equal. apply map_id.
Qed.

Lemma filter_step keep : step (fun ns => n_filter ns keep) (fun c c' => c' = keeping keep c).
Proof.
  apply (op_step (MFilter keep)). intros orig cal sh (W & S & TX). split; [exact Logic.I|]. split; [apply filter_cal; [exact W|apply csolid_hwide; exact S]|].
  rewrite ctext_keeping. unfold text in *. rewrite Forall_forall in *. intros x Hx. apply filter_In in Hx. apply TX, Hx.
Qed.

Lemma map_step f : (forall c, is_scalar c = true -> is_scalar (f c) = true) -> step (fun ns => n_map ns f) (fun c c' => c' = rewriting f c).
Proof.
  intros F. apply (op_step (MMap f)). intros orig cal sh (W & S & TX). split; [exact Logic.I|]. split; [apply map_cal; [exact W|apply csolid_hwide; exact S]|].
  rewrite ctext_rewriting. unfold text in *. rewrite Forall_forall in *. intros x Hx. apply in_map_iff in Hx. destruct Hx as (y & <- & Hy). auto.
Qed.

Lemma case_step f : (forall c, f c <> []) -> (forall c, is_scalar c = true -> text (f c)) ->
  step (fun ns => n_case ns f) (fun c c' => c' = expanding f c).
Proof.
  intros N F. apply (op_step (MCase f)). intros orig cal sh (W & S & TX). split; [exact N|]. split; [apply case_cal; [exact W|apply csolid_hwide; exact S|exact N]|].
  rewrite ctext_expanding. unfold text in *. apply Forall_flat_map. eapply Forall_impl; [|exact TX]. cbn beta. auto.
Qed.

(** ** Lists of changes *)
Lemma tloop_changed dest : forall prev rest, changes_fit (length rest) dest -> tloop prev dest rest [] = Ok (changed prev dest rest).
Proof.
  induction dest as [|[c ch] dest IH]; intros prev rest F; [reflexivity|]. cbn [tloop changed changes_fit] in *.
  destruct (0 <? ch)%Z; [rewrite IH by exact F; reflexivity|]. destruct F as [F1 F2]. destruct rest as [|[x a] rest]; [cbn in F1; lia|].
  rewrite app_nil_r. cbv zeta. rewrite IH; [reflexivity|]. rewrite skipn_length. replace (length ((x, a) :: rest) - S (Z.to_nat (- ch))) with (length ((x, a) :: rest) - 1 - Z.to_nat (- ch)) by lia. exact F2.
Qed.

Lemma changed_text dest : forall prev rest, changes_fit (length rest) dest -> ctext (changed prev dest rest) = map fst dest.
Proof. intros prev rest F. apply tloop_changed with (prev := prev) in F. eapply tloop_text; exact F. Qed.

Lemma transform_changed orig cal sh dest : wf_cal orig cal -> csolid cal -> starts_by_replacing dest -> changes_fit (length cal) dest ->
  transform (show orig cal sh) dest 0 = Ok (show orig (changed (0, 0) dest cal) sh).
Proof.
  intros W S B F. destruct cal as [|ca cal].
  - destruct dest as [|[c ch] d]; [apply transform_empty_text|]. cbn [starts_by_replacing changes_fit length] in *. replace (0 <? ch)%Z with false in F by lia. lia.
  - rewrite transform_hwide; [|exact W|discriminate|apply csolid_hwide; exact S]. rewrite trange_all. cbn [firstn skipn]. rewrite last_al_nil, tloop_changed by exact F. reflexivity.
Qed.

Lemma changes_step (dest : str -> list (char * Z)) :
  (forall s, text s -> starts_by_replacing (dest s) /\ changes_fit (length s) (dest s) /\ text (map fst (dest s))) ->
  step (fun ns => transform ns (dest (n_normalized ns)) 0) (fun c c' => c' = changed (0, 0) (dest (ctext c)) c).
Proof.
  intros H orig cal sh (W & S & TX). destruct (H (ctext cal) TX) as (B & F & TD).
  assert (F' : changes_fit (length cal) (dest (ctext cal))) by (rewrite <- length_ctext; exact F).
  pose proof (transform_changed orig cal sh _ W S B F') as E.
  destruct (safe_step_ok orig cal sh (MTransform (dest (ctext cal)) 0) W S) as (o & c & k & E' & W' & S').
  { cbn [safe_op n_normalized show]. rewrite Nat.sub_0_r. auto. }
  cbn [apply_norm_op] in E'. rewrite E in E'. injection E' as E1 E2 E3 E4. pose proof (shows_inj _ _ E2 E3) as E5. subst c o.
  exists (changed (0, 0) (dest (ctext cal)) cal). cbn [n_normalized show]. split; [exact E|]. split; [|reflexivity].
  split; [exact W'|]. split; [exact S'|]. rewrite changed_text by exact F'. exact TD.
Qed.

Lemma form_step form : form_ok form -> step (n_form form) (fun c c' => c' = formed form c).
Proof. intros H. exact (changes_step form H). Qed.

(** ** Stripping *)
Lemma leading_app w l r : all_ws w l -> no_ws_head w r -> without_leading w (l ++ r) = r.
Proof.
  induction 1 as [|ca l H _ IH]; intros N; cbn [app without_leading].
  - destruct r as [|ca r]; [reflexivity|]. cbn [without_leading no_ws_head] in *. rewrite N. reflexivity.
  - rewrite H. auto.
Qed.
Lemma leading_all w l : all_ws w l -> without_leading w l = [].
Proof. intros H. rewrite <- (app_nil_r l). apply leading_app; [exact H|exact Logic.I]. Qed.

Lemma lrstrip_step w lf rt : step (fun ns => n_lrstrip ns w lf rt)
  (fun c c' => c' = (if rt then without_trailing w else fun x => x) ((if lf then without_leading w else fun x => x) c)).
Proof.
  intros orig cal sh (W & S & TX).
  destruct (lrstrip_cal orig cal sh w lf rt W (csolid_hwide _ S)) as (l & m & r & E & A1 & A2 & N1 & N2 & H1 & H2 & H).
  destruct (safe_step_ok orig cal sh (MStrip w lf rt) W S Logic.I) as (o & c & k & E' & W' & S').
  cbn [apply_norm_op] in E'. rewrite H in E'. injection E' as E1 E2 E3 E4. pose proof (shows_inj _ _ E2 E3) as E5. subst c o.
  exists m. split; [exact H|]. split.
  - split; [exact W'|]. split; [exact S'|]. rewrite E in TX. unfold text in *. rewrite !ctext_app in TX. apply Forall_app in TX. destruct TX as [_ TX]. apply Forall_app in TX. apply TX.
  - subst cal. assert (L : (if lf then without_leading w else fun x => x) (l ++ m ++ r) = m ++ r \/ (m = [] /\ (if lf then without_leading w else fun x => x) (l ++ m ++ r) = [])).
    { destruct lf; [|left; rewrite (N1 eq_refl); reflexivity]. destruct m as [|ca m].
      - right. split; [reflexivity|]. cbn [app]. apply leading_all. apply Forall_app. auto.
      - left. apply leading_app; [exact A1|]. cbn [app no_ws_head]. exact (H1 eq_refl). }
    destruct rt.
    + destruct L as [L|[-> L]]; rewrite L; [|reflexivity]. unfold without_trailing. rewrite rev_app_distr, leading_app; [rewrite rev_involutive; reflexivity| |exact (H2 eq_refl)].
      unfold all_ws in *. apply Forall_rev. exact A2.
    + rewrite (N2 eq_refl) in L |- *. rewrite app_nil_r in L |- *. destruct L as [L|[E0 L]]; rewrite L; [|rewrite E0]; reflexivity.
Qed.

Lemma strip_step T l r : step (strip_normalize T l r)
  (fun c c' => c' = (if r then without_trailing (u_white T) else fun x => x) ((if l then without_leading (u_white T) else fun x => x) c)).
Proof.
  destruct l, r; unfold strip_normalize; cbn [andb].
  - exact (lrstrip_step (u_white T) true true).
  - eapply step_weaken; [apply step_seq; [exact (lrstrip_step (u_white T) true false)|exact step_id]|]. cbn beta. intros c c' (m & -> & ->). reflexivity.
  - eapply step_weaken; [apply step_seq; [exact step_id|exact (lrstrip_step (u_white T) false true)]|]. cbn beta. intros c c' (m & -> & ->). reflexivity.
  - eapply step_weaken; [apply step_seq; [exact step_id|exact step_id]|]. cbn beta. intros c c' (m & -> & ->). reflexivity.
Qed.

(** ** BERT *)
Section bert.
  Context (T : tables).

  Lemma white_spec c : bert_whitespace T c = true <-> blank T c.
  Proof.
    unfold bert_whitespace, blank. destruct (N.eqb_spec c 9); cbn [orb]; [tauto|]. destruct (N.eqb_spec c 10); cbn [orb]; [tauto|]. destruct (N.eqb_spec c 13); cbn [orb]; tauto.
  Qed.
  Lemma control_spec c : bert_control T c = true <-> control T c.
  Proof.
    unfold bert_control, control. destruct (N.eqb_spec c 9); cbn [orb]; [split; [discriminate|tauto]|]. destruct (N.eqb_spec c 10); cbn [orb]; [split; [discriminate|tauto]|].
    destruct (N.eqb_spec c 13); cbn [orb]; [split; [discriminate|tauto]|]. tauto.
  Qed.
  Lemma chinese_spec c : is_chinese_char c = true <-> (ideograph c /\ ~ forgotten c).
  Proof.
    unfold is_chinese_char, ideograph, forgotten, between. split.
    - intros H. rewrite !orb_true_iff, !andb_true_iff, !N.leb_le in H. split.
      + unfold cjk_blocks. decompose [or] H;
          first [exists 0x4E00%N, 0x9FFF%N; split; [cbn [In]; auto 12|lia] | exists 0x3400%N, 0x4DBF%N; split; [cbn [In]; auto 12|lia] | exists 0x20000%N, 0x2A6DF%N; split; [cbn [In]; auto 12|lia] | exists 0x2A700%N, 0x2B73F%N; split; [cbn [In]; auto 12|lia] | exists 0x2B740%N, 0x2B81F%N; split; [cbn [In]; auto 12|lia] | exists 0x2B820%N, 0x2CEAF%N; split; [cbn [In]; auto 12|lia] | exists 0xF900%N, 0xFAFF%N; split; [cbn [In]; auto 12|lia] | exists 0x2F800%N, 0x2FA1F%N; split; [cbn [In]; auto 12|lia]].
      + lia.
    - intros [(a & b & I & H) F]. unfold cjk_blocks in I. cbn [In] in I. rewrite !orb_true_iff, !andb_true_iff, !N.leb_le.
      decompose [or] I; try contradiction; match goal with E : (_, _) = (_, _) |- _ => injection E as <- <- end; lia.
  Qed.

  Lemma clean_step : step (do_clean_text T) (bert_clean T).
  Proof.
    eapply step_weaken; [apply step_seq; [apply filter_step|apply map_step]|].
    - intros c H. destruct (bert_whitespace T c); [reflexivity|exact H].
    - cbn beta. intros c c' (m & -> & ->). unfold bert_clean. eexists. eexists. split; [|split; [|split; [|reflexivity]]].
      + intros x. cbn beta. rewrite negb_true_iff, !orb_false_iff, !N.eqb_neq. rewrite <- control_spec. destruct (bert_control T x); intuition congruence.
      + intros x H. cbn beta. apply white_spec in H. rewrite H. reflexivity.
      + intros x H. cbn beta. destruct (bert_whitespace T x) eqn:E; [apply white_spec in E; tauto|reflexivity].
  Qed.

  Definition cjk_image (c : char) : str := if is_chinese_char c then [32%N; c; 32%N] else [c].
  Lemma handle_case ns : do_handle_chinese_chars ns = n_case ns cjk_image.
  Proof.
    unfold do_handle_chinese_chars, n_case. f_equal. apply flat_map_ext. intros c. unfold cjk_image. destruct (is_chinese_char c); reflexivity.
  Qed.
  Lemma cjk_step : step do_handle_chinese_chars bert_isolate.
  Proof.
    eapply step_weaken; [apply (step_ext (fun ns => n_case ns cjk_image)); [intros; symmetry; apply handle_case|apply case_step]|].
    - intros c. unfold cjk_image. destruct (is_chinese_char c); discriminate.
    - intros c H. unfold cjk_image. destruct (is_chinese_char c); repeat constructor; exact H.
    - intros c c' ->. exists cjk_image. split; [|split; [|reflexivity]].
      + intros x H1 H2. unfold cjk_image. replace (is_chinese_char x) with true; [reflexivity|]. symmetry. apply chinese_spec; auto.
      + intros x H. unfold cjk_image. destruct (is_chinese_char x) eqn:E; [|reflexivity]. apply chinese_spec in E. tauto.
  Qed.

  Context (TO : tables_ok T).

  Lemma lower_step : step (do_lowercase T) (fun c c' => c' = expanding (u_lower T) c).
  Proof. apply case_step; intros c; apply (ok_lower T TO c). Qed.

  Lemma accents_step : step (do_strip_accents T) (fun c c' => c' = keeping (fun x => negb (u_nonspacing T x)) (formed (u_nfd T) c)).
  Proof.
    eapply step_weaken; [apply step_seq; [apply (form_step _ (ok_nfd T TO))|apply filter_step]|]. cbn beta. intros c c' (m & -> & ->). reflexivity.
  Qed.

  Lemma bert_step clean cjk strip lower : step (bert_normalize T clean cjk strip lower) (normalizes T (NBert clean cjk strip lower)).
  Proof.
    eapply step_weaken.
    - unfold bert_normalize. apply step_seq; [apply step_when, clean_step|]. apply step_seq; [apply step_when, cjk_step|].
      apply step_seq; [apply step_when, accents_step|]. apply step_when, lower_step.
    - cbn beta. intros c c' (m1 & H1 & m2 & H2 & m3 & H3 & H4). econstructor; eauto.
  Qed.
End bert.

(** ** NMT *)
Lemma nmt_step T : step do_nmt (normalizes T NNmt).
Proof.
  eapply step_weaken; [apply step_seq; [apply filter_step|apply map_step]|].
  - intros c H. destruct (nmt_space c); [reflexivity|exact H].
  - cbn beta. intros c c' (m & -> & ->).
    match goal with |- normalizes _ _ _ ?X => replace X with
      (rewriting (fun c => if existsb (N.eqb c) [0x9; 0xA; 0xC; 0xD; 0x1680; 0x200B; 0x200C; 0x200D; 0x200E; 0x200F; 0x2028; 0x2029; 0x2581; 0xFEFF; 0xFFFD]%N
                          then 32%N else c)
        (keeping (fun c => negb (existsb (N.eqb c)
                   [1; 2; 3; 4; 5; 6; 7; 8; 0xB; 0xE; 0xF; 0x10; 0x11; 0x12; 0x13; 0x14; 0x15; 0x16; 0x17; 0x18; 0x19; 0x1A; 0x1B; 0x1C; 0x1D; 0x1E; 0x1F; 0x7F; 0x8F; 0x9F]%N)) c)); [constructor|] end.
    unfold rewriting, keeping. rewrite (filter_ext _ (fun ca : char * (nat * nat) => negb (nmt_removed (fst ca)))).
    + apply map_ext. intros [x a]. cbn [fst snd]. f_equal. replace (nmt_space x) with (existsb (N.eqb x) [0x9; 0xA; 0xC; 0xD; 0x1680; 0x200B; 0x200C; 0x200D; 0x200E; 0x200F; 0x2028; 0x2029; 0x2581; 0xFEFF; 0xFFFD]%N); [reflexivity|].
      unfold nmt_space, between. cbn [existsb]. apply eq_true_iff_eq. rewrite !orb_true_iff, !andb_true_iff, !N.eqb_eq, !N.leb_le. lia.
    + intros [x a]. cbn [fst]. f_equal.
      unfold nmt_removed, between. cbn [existsb]. apply eq_true_iff_eq. rewrite !orb_true_iff, !andb_true_iff, !N.eqb_eq, !N.leb_le. lia.
Qed.

(** ** Replace, Prepend, ByteLevel *)
Lemma replace_solid content : forall segs prev, csolid (concat (map fst segs)) ->
  (fst prev < snd prev \/ match segs with ([], true) :: _ => False | ([], false) :: _ => segs = [([], false)] | _ => True end) ->
  csolid (spec_replace content prev segs).
Proof.
  intros segs. induction segs as [|[t f] segs IH]; intros prev S H; [constructor|]. cbn [spec_replace map concat fst] in *.
  apply Forall_app in S. destruct S as [S1 S2].
  assert (L : fst (last_al prev t) < snd (last_al prev t) \/ (f = false /\ t = [] /\ segs = [])).
  { destruct t as [|x t].
    - destruct H as [H|H]; [left; exact H|]. destruct f; [contradiction|]. injection H as ->. auto.
    - left. rewrite last_al_cons. pose proof (last_al_In (snd x) t) as I. apply (in_map_iff snd (x :: t)) in I. destruct I as (y & <- & I). rewrite Forall_forall in S1. exact (S1 y I). }
  destruct L as [L|(-> & -> & ->)]; [|constructor].
  apply Forall_app. split.
  - destruct f; [|exact S1]. apply Forall_forall. intros x Hx. apply in_map_iff in Hx. destruct Hx as (c & <- & _). exact L.
  - apply IH; [exact S2|left; exact L].
Qed.

Lemma replace_text_ok content : forall (segs : list (ranged * bool)) prev, text content -> text (ctext (concat (map fst segs))) -> text (ctext (spec_replace content prev segs)).
Proof.
  induction segs as [|[t f] segs IH]; intros prev TC TX; [constructor|]. cbn [spec_replace map concat fst] in *. unfold text in *. rewrite ctext_app in *. apply Forall_app in TX.
  destruct TX as [T1 T2]. apply Forall_app. split; [|apply IH; assumption]. destruct f; [|exact T1]. unfold ctext. rewrite map_map. cbn [fst]. rewrite map_id. exact TC.
Qed.

Lemma replace_step T find content : usable (NReplace find content) -> step (replace_normalize find content) (normalizes T (NReplace find content)).
Proof.
  intros (TC & U) orig cal sh (W & S & TX). destruct (U (ctext cal)) as [EM E0].
  destruct (C16_regex find (ctext cal) EM) as (segs & [Ht Ho] & _).
  destruct (lift_segs segs cal Ht) as (csegs & Ec & Es & Eo).
  exists (spec_replace content (0, 0) csegs).
  assert (E : replace_normalize find content (show orig cal sh) = Ok (show orig (spec_replace content (0, 0) csegs) sh)).
  { unfold replace_normalize. cbn [n_normalized show]. rewrite Ho, <- (Eo 0), Ec. apply replace_cal. }
  split; [exact E|]. split.
  - split; [apply (wf_spec_replace orig sh); subst cal; exact W|]. split; [|apply replace_text_ok; [exact TC|subst cal; exact TX]].
    apply replace_solid; [subst cal; exact S|]. right. destruct csegs as [|[[|x t] f] csegs]; auto.
    assert (Z : regex_find_matches find (ctext cal) = ((0, 0), f) :: seg_offsets csize 0 csegs) by (rewrite Ho, <- (Eo 0); reflexivity).
    unfold regex_find_matches in Z. destruct (ctext cal) as [|c s] eqn:Et; cbn [is_nil] in Z.
    + injection Z as <- Z. destruct csegs as [|[t' f'] r]; [reflexivity|discriminate].
    + destruct (find (c :: s)) as [|[a b] ms]; cbn [regex_loop] in Z.
      * pose proof (len_utf8_pos c). cbn [blen] in Z. destruct (0 =? _) eqn:Q; [discriminate|]. injection Z as Z _. cbn [blen] in Z. lia.
      * destruct (0 =? a) eqn:Q; [apply Nat.eqb_eq in Q; subst a; cbn [app] in Z; injection Z as -> Hf _; discriminate|].
        cbn [app] in Z. injection Z as Z _ _. lia.
  - constructor; [exact Ec|]. rewrite Es. split; [exact Ht|exact Ho].
Qed.

Lemma prepend_step T s : usable (NPrepend s) -> step (prepend_normalize s) (normalizes T (NPrepend s)).
Proof.
  intros (N & TS) orig cal sh (W & S & TX). unfold prepend_normalize. cbn [n_normalized show]. destruct cal as [|[c a] r].
  - exists []. split; [reflexivity|]. split; [split; [exact W|split; assumption]|constructor].
  - cbn [ctext map is_nil]. exists (map (fun x => (x, a)) s ++ (c, a) :: r).
    destruct (safe_step_ok orig ((c, a) :: r) sh (MPrepend s) W S N) as (o & c' & k & E' & W' & S').
    cbn [apply_norm_op] in E'. rewrite prepend_result in E' by exact N. injection E' as E1 E2 E3 E4. pose proof (shows_inj _ _ E2 E3) as E5. subst c' o.
    split; [apply prepend_result; exact N|]. split; [|constructor]. split; [exact W'|]. split; [exact S'|].
    rewrite ctext_app. unfold text. apply Forall_app. split; [|exact TX]. unfold ctext. rewrite map_map. cbn [fst]. rewrite map_id. exact TS.
Qed.

Lemma expanding_ext f g cal : (forall c, In c (ctext cal) -> f c = g c) -> expanding f cal = expanding g cal.
Proof.
  unfold expanding, ctext. induction cal as [|ca cal IH]; intros H; [reflexivity|]. cbn [flat_map]. rewrite (H (fst ca)) by (left; reflexivity). rewrite IH; [reflexivity|].
  intros c I. apply H. right. exact I.
Qed.

Lemma byte_char_scalar c : is_scalar c = true -> text (image_char c).
Proof.
  intros H. assert (TX : text [c]) by (repeat constructor; exact H). unfold image_char. rewrite H. apply Forall_forall. intros d Hd. apply in_map_iff in Hd. destruct Hd as (b & <- & Hb).
  pose proof (encode_char_bytes c H) as F. rewrite Forall_forall in F. apply alphabet, F. exact Hb.
Qed.

Lemma byte_step T : step byte_level_normalize (normalizes T NByteLevel).
Proof.
  intros orig cal sh G. destruct (case_step image_char image_char_nonempty byte_char_scalar orig cal sh G) as (c & E & G' & ->).
  assert (X : expanding image_char cal = expanding (fun c => byte_image [c]) cal).
  { apply expanding_ext. intros x I. destruct G as (_ & _ & TX). unfold text in TX. rewrite Forall_forall in TX. unfold image_char, byte_image, encode_utf8. cbn [flat_map]. rewrite app_nil_r, (TX x I). reflexivity. }
  exists (expanding image_char cal). split; [|split; [exact G'|rewrite X; constructor]].
  unfold byte_level_normalize. destruct (is_nil _) eqn:N.
  - cbn [n_normalized show] in N. destruct cal; [reflexivity|discriminate].
  - rewrite byte_level_norm_case; [exact E|]. apply G.
Qed.
