(** Proofs about the ready-made BERT tokenizer. *)
From Coq Require Import String.
From Verif Require Import Base ListFacts StrBytes AMap EncodingModel BpeWordModel BpeModel BpeSpec BpeProps BpeTrainModel BpeTrainSpec BpeTrainProofs BpeTrainProofs4 BpeTrainProofs8 BpeTrainProps TrainersModel WordPieceModel WordPieceSpec
  ProcessorsModel DecodersModel DecodersSpec AddedModel AddedSpec AddedProofs AddedProofs2 AddedProps NormalizersModel NormalizersSpec PreTokModel PreTokenizersModel PreTokenizersSpec TokenizerModel
  PreTokSpec PreTokenizersProps RoundTripModel RoundTripSpec RoundTripProofs SpmTripSpec SpmTripProofs WordTripModel WordTripSpec WordTripProofs WordTripProps
  ModelFilesModel ComponentFilesModel TokenizerFilesModel TokenizerFilesSpec TokenizerTrainModel TokenizerTrainSpec TokenizerTrainProofs TokenizerTrainProps
  TrainSaveModel TrainSaveProps PySettingsModel ImplSpec ImplProofs ImplBertModel ImplBertSpec.

Definition any_norm : (str -> option str) -> Prop := fun _ => True.
Definition wp_given (v : list (str * N)) (o : bert_options) : wordpiece := mkWP v (str_of (wo_unk o)) (key "##") 100.

Lemma history_any build mv NF av o1 o2 : added_history build mv NF av o1 o2 -> added_history build mv any_norm av o1 o2.
Proof. intros H. induction H; [apply ah_new|eapply ah_add|eapply ah_fail|eapply ah_renormalize|apply ah_encode_special]; eauto; intros f _; exact Logic.I. Qed.

Lemma given_sound v o : sound_vocab v -> model_ok (wp_vocabulary (wp_given v o)) /\ dense (wp_vocabulary (wp_given v o)).
Proof.
  intros (D1 & D2 & LT). split; [apply wp_model_ok; assumption|]. intros t i H. cbn [wp_vocabulary wp_given mv_token_to_id mv_size w_vocab] in *. unfold wp_token_to_id in H.
  apply (aget_In str_eqb str_eqb_eq) in H. exact (LT _ _ H).
Qed.

(** ** Telling the special tokens *)
Section telling.
  Context {W : Type} (P : platform W) (M : @model W).
  Notation mv := (model_vocabulary M).
  Context (MO : model_ok mv) (DN : dense mv).

  (** A tokenizer without normalizer, with special tokens of the vocabulary. *)
  Record told_config (g : config W) (cs : list str) : Prop := {
    tc_parts : exists av, g = set_added (tokenizer_new M) av;
    tc_history : added_history (pf_build P) mv no_norm (g_added g) (map special_text cs) (map special_text cs);
    tc_known : Forall (fun c => mv_token_to_id mv c <> None) cs;
    tc_cache : av_cache (g_added g) = [] }.

  Lemma offers cs : Forall (fun t => at_normalized t = false) (map special_text cs).
  Proof. apply Forall_forall. intros t H. apply in_map_iff in H. destruct H as (c & <- & _). reflexivity. Qed.

  Lemma told_ids g cs c : told_config g cs -> tk_token_to_id mv (g_added g) c = mv_token_to_id mv c.
  Proof.
    intros [_ H K _]. destruct (mv_token_to_id mv c) as [i|] eqn:E; [eapply C25_model_tokens_keep_their_id; eauto|].
    unfold tk_token_to_id, av_token_to_id. destruct (aget str_eqb c (av_map (g_added g))) as [j|] eqn:EJ; [|exact E]. exfalso.
    pose proof (history_inv _ _ _ _ _ _ MO DN H) as AI. destruct (ai_fwd _ _ AI _ _ EJ) as (t & ET & EC). destruct (plain_history _ _ _ _ _ _ H (offers cs)) as (_ & O & _).
    apply (aget_In N.eqb N_eqb_eq) in ET. apply O in ET. apply in_map_iff in ET. destruct ET as (d & <- & ID). cbn [special_text at_content] in EC. subst d.
    rewrite Forall_forall in K. exact (K c ID E).
  Qed.

  Lemma told_step g cs c g' : told_config g cs -> tell_special P c g = Ok g' -> exists more, told_config g' (cs ++ more) /\ (mv_token_to_id mv c <> None -> In c more) /\ incl more [c].
  Proof.
    intros T H. unfold tell_special in H. destruct T as [(av & EG) TH TK TC]. pose proof (Build_told_config g cs (ex_intro _ av EG) TH TK TC) as T.
    assert (EM : g_model g = M) by (rewrite EG; reflexivity). rewrite EM in H. rewrite (told_ids _ _ c T) in H.
    destruct (mv_token_to_id mv c) as [i|] eqn:E.
    - unfold tokenizer_add in H. assert (EN : norm_fun P g = None) by (rewrite EG; reflexivity). rewrite EM, EN in H.
      destruct (add_tokens (pf_build P) mv None [special_text c] (g_added g)) as [av' [n|]] eqn:EA; [|discriminate]. injection H as <-. exists [c]. split; [|split; [intros _; left; reflexivity|apply incl_refl]]. constructor.
      + exists av'. rewrite EG. reflexivity.
      + cbn [set_added g_added]. rewrite map_app. cbn [map]. eapply (ah_add _ _ _ _ _ _ None); [exact TH|discriminate|exact EA].
      + apply Forall_app. split; [exact TK|]. constructor; [congruence|constructor].
      + cbn [set_added g_added]. unfold add_tokens in EA. destruct (add_loop mv None [special_text c] (g_added g) (first_next_id (g_added g) mv) 0) as [a1 [k|]] eqn:EL; [|discriminate].
        apply loop_cache in EL. unfold av_refresh in EA.
        destruct (is_nil (plain_pairs a1) || pf_build P (plain_pairs a1)); [destruct (is_nil (normalized_pairs a1) || pf_build P (normalized_pairs a1))|]; injection EA as <- _; cbn [av_cache]; congruence.
    - injection H as <-. exists []. rewrite app_nil_r. split; [exact T|]. split; [congruence|intros x []].
  Qed.

  Lemma told_all l : forall g cs g', told_config g cs -> tell_all P l g = Ok g' ->
    exists more, told_config g' (cs ++ more) /\ (forall c, In c l -> mv_token_to_id mv c <> None -> In c more) /\ incl more l.
  Proof.
    induction l as [|c l IH]; intros g cs g' T H; cbn [tell_all] in H.
    - injection H as <-. exists []. rewrite app_nil_r. split; [exact T|]. split; [intros c []|apply incl_refl].
    - apply bind_ok in H. destruct H as (g1 & H1 & H2). destruct (told_step _ _ _ _ T H1) as (m1 & T1 & A1 & B1). destruct (IH _ _ _ T1 H2) as (m2 & T2 & A2 & B2).
      exists (m1 ++ m2). rewrite app_assoc. split; [exact T2|]. split.
      + intros d [<-|I] K; apply in_or_app; [left; auto|right; auto].
      + intros x I. apply in_app_or in I. destruct I as [I|I]; [apply B1 in I; destruct I as [<-|[]]; left; reflexivity|right; apply B2; exact I].
  Qed.

  Lemma told_new : told_config (tokenizer_new M) [].
  Proof. constructor; [exists av_new; reflexivity|apply ah_new|constructor|reflexivity]. Qed.

  (** With a builder that takes distinct patterns nothing fails. *)
  Context (HB : forall l, NoDup (map fst l) -> pf_build P l = true).
  Lemma refresh_total av : av_inv mv av -> av_cache av = [] -> exists av', av_refresh (pf_build P) av = (av', true).
  Proof.
    intros AI CA. assert (B1 : pf_build P (plain_pairs av) = true).
    { apply HB. apply (contents_distinct mv); [exact AI|]. intros it. destruct (at_normalized (snd it)); auto. }
    assert (B2 : pf_build P (normalized_pairs av) = true).
    { apply HB. apply (contents_distinct mv); [exact AI|]. intros it. rewrite CA. cbn [aget]. destruct (at_normalized (snd it)); auto. }
    unfold av_refresh. rewrite B1, B2, !orb_true_r. eauto.
  Qed.
  Lemma told_total l : forall g cs, told_config g cs -> exists g', tell_all P l g = Ok g'.
  Proof.
    induction l as [|c l IH]; intros g cs T; [exists g; reflexivity|]. cbn [tell_all].
    assert (X : exists g1, tell_special P c g = Ok g1).
    { unfold tell_special. destruct (tk_token_to_id _ _ c) as [i|]; [|eauto]. destruct T as [(av & EG) TH TK TC]. unfold tokenizer_add. rewrite EG. cbn [set_added tokenizer_new g_model norm_fun g_normalizer option_map g_added].
      rewrite EG in TH, TC. cbn [set_added g_added] in TH, TC.
      pose proof (history_inv _ _ _ _ _ _ MO DN TH) as AI. unfold add_tokens.
      assert (TF : forall (f : str -> option str) d, None = Some f -> f d <> None) by (intros f d X; discriminate X).
      destruct (add_loop_total mv None TF [special_text c] av (first_next_id av mv) 0) as (av1 & n & E). rewrite E.
      assert (A1 : av_inv mv av1) by (eapply add_loop_inv; [exact MO|exact DN|exact AI|apply first_next_free; assumption|exact E]).
      destruct (refresh_total av1 A1) as (av2 & ->); [apply loop_cache in E; congruence|]. eauto. }
    destruct X as (g1 & E1). rewrite E1. cbn [bind]. destruct (told_step _ _ _ _ T E1) as (more & T1 & _). eauto.
  Qed.
  Lemma normal_total g cs n : told_config g cs -> exists g', with_normalizer P g (Some n) = (g', true).
  Proof.
    intros [(av & EG) TH TK TC]. unfold with_normalizer, av_refresh_normalized. rewrite EG in *. cbn [set_added g_added g_normalizer] in *.
    destruct (plain_history _ _ _ _ _ _ TH (offers cs)) as (_ & O & _). pose proof (offers cs) as F.
    assert (FM : Forall (fun it : N * added_token => at_normalized (snd it) = false) (av_map_r av)).
    { apply Forall_forall. intros [i t] Hit. rewrite Forall_forall in F. apply F. eapply O; eauto. }
    rewrite recache_offer by exact FM. pose proof (history_inv _ _ _ _ _ _ MO DN TH) as AI.
    destruct (refresh_total (mkAV (av_map av) (av_map_r av) (av_special av) [] (av_trie av) (av_ntrie av) (av_encode_special av))) as (av2 & ->); [|reflexivity|eauto].
    destruct AI as [A B C D E G]. constructor; assumption.
  Qed.
End telling.

(** ** The tokenizer *)
Section config.
  Context {W : Type} (P : platform W).

  Record bert_config (g : config W) (o : bert_options) (m : wordpiece) (post : option proc_config) (offered taken : list added_token) : Prop := {
    bc_normal : g_normalizer g = Some (CnBert (wo_clean o) (wo_chinese o) (wo_accents o) (wo_lowercase o));
    bc_pre : g_pre g = Some CpBert;
    bc_model : g_model g = MWordPiece m;
    bc_post : g_post g = post;
    bc_decoder : g_decoder g = Some (CdWordPiece (wo_prefix o) true);
    bc_plain : g_truncation g = None /\ g_padding g = None;
    bc_history : added_history (pf_build P) (wp_vocabulary m) any_norm (g_added g) offered taken }.

  Lemma bert_extended g o m post offered taken ts g' : bert_config g o m post offered taken -> extended P g ts g' -> bert_config g' o m post (offered ++ ts) (taken ++ ts).
  Proof.
    intros C X. induction X as [|ts g1 more g2 n X IH H|ts g1 b X IH].
    - rewrite !app_nil_r. exact C.
    - unfold tokenizer_add in H. destruct IH as [A1 A2 A3 A4 A5 A6 A7].
      destruct (add_tokens (pf_build P) (model_vocabulary (g_model g1)) (norm_fun P g1) more (g_added g1)) as [av r] eqn:EA. injection H as <- ->. constructor; try assumption.
      rewrite A3 in EA. cbn [set_added g_added]. rewrite !app_assoc. eapply ah_add; [exact A7|intros f _; exact Logic.I|exact EA].
    - destruct IH as [A1 A2 A3 A4 A5 A6 A7]. constructor; try assumption. cbn [encode_special_tokens set_added g_added]. apply ah_encode_special. exact A7.
  Qed.

  (** *** With a vocabulary *)
  Lemma given_config v o g : sound_vocab v -> bert_new P (Some v) o = Ok g ->
    exists sep cls cs, In (str_of (wo_sep o), sep) v /\ In (str_of (wo_cls o), cls) v /\
      (forall c, In c (bert_tokens o) -> In c (map fst v) -> In c cs) /\ incl cs (bert_tokens o) /\ In (str_of (wo_sep o)) cs /\ In (str_of (wo_cls o)) cs /\
      bert_config g o (wp_given v o) (Some (CqBert (str_of (wo_sep o), sep) (str_of (wo_cls o), cls))) (map special_text cs) (map special_text cs).
  Proof.
    intros SV H. destruct (given_sound v o SV) as [MO DN]. unfold bert_new in H. change (bert_model (Some v) o) with (wp_given v o) in H. apply bind_ok in H. destruct H as (g1 & H1 & H).
    destruct (told_all P (MWordPiece (wp_given v o)) MO DN _ _ _ _ (told_new P _) H1) as (cs & T & A & B). cbn [app] in T.
    unfold with_normalizer in H. destruct (av_refresh_normalized (pf_build P) _ _) as [av ok] eqn:ER in H. destruct ok; [|discriminate]. apply bind_ok in H. destruct H as (g2 & H2 & H). injection H as <-.
    pose proof T as [(av0 & EG) TH TK TC]. rewrite EG in *. cbn [set_added g_added g_normalizer g_pre g_model g_post g_decoder g_truncation g_padding tokenizer_new with_pre_tokenizer bert_post model_vocabulary] in *.
    change (mkModel (wp_token_to_id (wp_given v o)) (wp_id_to_token (wp_given v o)) (w_vocab (wp_given v o)) (List.length (w_vocab (wp_given v o)))) with (wp_vocabulary (wp_given v o)) in *.
    assert (TH2 : added_history (pf_build P) (wp_vocabulary (wp_given v o)) any_norm av (map special_text cs) (map special_text cs)).
    { eapply ah_renormalize; [|intros f _; exact Logic.I|exact ER]. exact (history_any _ _ _ _ _ _ TH). }
    assert (ID : forall c, tk_token_to_id (wp_vocabulary (wp_given v o)) av c = mv_token_to_id (wp_vocabulary (wp_given v o)) c).
    { intros c. pose proof (told_ids P (MWordPiece (wp_given v o)) MO DN _ _ c T) as TI. cbn [set_added g_added] in TI. change (model_vocabulary (MWordPiece (wp_given v o))) with (wp_vocabulary (wp_given v o)) in TI. rewrite <- TI. unfold tk_token_to_id, av_token_to_id.
      assert (EM : av_map av = av_map av0); [|rewrite EM; reflexivity]. unfold av_refresh_normalized in ER. destruct (recache _ _ _) as [c0 [|]] in ER; [|discriminate].
      unfold av_refresh in ER. destruct (is_nil _ || pf_build P _) in ER; [destruct (is_nil _ || pf_build P _) in ER|]; injection ER as <-; reflexivity. }
    rewrite !ID in H2. destruct (mv_token_to_id _ (str_of (wo_sep o))) as [sep|] eqn:ES; [|discriminate]. destruct (mv_token_to_id _ (str_of (wo_cls o))) as [cls|] eqn:EC; [|discriminate]. injection H2 as <-.
    assert (KN : forall c, In c (map fst v) <-> mv_token_to_id (wp_vocabulary (wp_given v o)) c <> None).
    { intros c. change (mv_token_to_id (wp_vocabulary (wp_given v o)) c) with (aget str_eqb c v). destruct SV as (D1 & _). split.
      - intros I. apply in_map_iff in I. destruct I as ([c' i] & EQ & I). cbn [fst] in EQ. subst c'. rewrite (In_aget str_eqb str_eqb_eq _ _ _ D1 I). discriminate.
      - intros NE. destruct (aget str_eqb c v) as [i|] eqn:E; [|congruence]. apply (aget_In str_eqb str_eqb_eq) in E. apply (in_map fst) in E. exact E. }
    exists sep, cls, cs. split; [apply (aget_In str_eqb str_eqb_eq); exact ES|]. split; [apply (aget_In str_eqb str_eqb_eq); exact EC|]. split; [intros c I1 I2; apply A; [exact I1|apply KN; exact I2]|]. split; [exact B|].
    split; [apply A; [right; left; reflexivity|congruence]|]. split; [apply A; [right; right; left; reflexivity|congruence]|].
    constructor; try reflexivity; [split; reflexivity|exact TH2].
  Qed.

  Lemma accepts v o : sound_vocab v -> (forall l, NoDup (map fst l) -> pf_build P l = true) ->
    In (str_of (wo_sep o)) (map fst v) -> In (str_of (wo_cls o)) (map fst v) -> exists g, bert_new P (Some v) o = Ok g.
  Proof.
    intros SV HB IS IC. destruct (given_sound v o SV) as [MO DN]. unfold bert_new. change (bert_model (Some v) o) with (wp_given v o).
    destruct (told_total P (MWordPiece (wp_given v o)) MO DN HB (bert_tokens o) _ _ (told_new P _)) as (g1 & E1). rewrite E1. cbn [bind].
    destruct (told_all P (MWordPiece (wp_given v o)) MO DN _ _ _ _ (told_new P _) E1) as (cs & T & _). cbn [app] in T.
    destruct (normal_total P (MWordPiece (wp_given v o)) MO DN HB g1 cs (CnBert (wo_clean o) (wo_chinese o) (wo_accents o) (wo_lowercase o)) T) as (g2 & E2). rewrite E2.
    assert (EM : g_model g2 = MWordPiece (wp_given v o)).
    { destruct T as [(av & EG) _ _ _]. rewrite EG in E2. unfold with_normalizer in E2. destruct (av_refresh_normalized _ _ _) in E2. injection E2 as <- _. reflexivity. }
    assert (AH : exists o1 o2, added_history (pf_build P) (wp_vocabulary (wp_given v o)) any_norm (g_added g2) o1 o2).
    { destruct T as [(av & EG) TH _ _]. rewrite EG in *. unfold with_normalizer in E2. destruct (av_refresh_normalized _ _ _) as [a ok] eqn:ER in E2. injection E2 as <- _. cbn [set_added g_added]. do 2 eexists. eapply ah_renormalize; [|intros f _; exact Logic.I|exact ER].
      exact (history_any _ _ _ _ _ _ TH). }
    destruct AH as (o1 & o2 & AH).
    assert (KN : forall c, In c (map fst v) -> exists i, tk_token_to_id (wp_vocabulary (wp_given v o)) (g_added g2) c = Some i).
    { intros c I. apply in_map_iff in I. destruct I as ([c' i] & EQ & I). cbn [fst] in EQ. subst c'. exists i. eapply C25_model_tokens_keep_their_id; [exact AH|]. apply (In_aget str_eqb str_eqb_eq); [apply SV|exact I]. }
    destruct (KN _ IS) as (i & EI). destruct (KN _ IC) as (j & EJ).
    cbn [bert_post with_pre_tokenizer g_model g_added]. rewrite EM. cbn [model_vocabulary].
    change (mkModel (wp_token_to_id (wp_given v o)) (wp_id_to_token (wp_given v o)) (w_vocab (wp_given v o)) (List.length (w_vocab (wp_given v o)))) with (wp_vocabulary (wp_given v o)).
    rewrite EI, EJ. cbn [bind]. eauto.
  Qed.

  (** *** Without a vocabulary *)
  Definition empty_bert (o : bert_options) : config W :=
    mkConfig (Some (CnBert (wo_clean o) (wo_chinese o) (wo_accents o) (wo_lowercase o))) (Some CpBert) (MWordPiece (wp_given [] o)) None (Some (CdWordPiece (wo_prefix o) true)) av_new None None.
  Lemma new_empty o : bert_new P None o = Ok (empty_bert o).
  Proof. reflexivity. Qed.

  (** *** Words *)
  Lemma bert_is g o m post offered taken : tables_ok (pf_norm P) -> sane (pf_pre P) -> bert_config g o m post offered taken -> Forall (harmless P (w_prefix m)) offered ->
    word_tokenizer (runtime P g) (wp_vocabulary m) (pf_norm P) (bert_normal o) (pf_pre P) PtBert offered /\ tz_model (runtime P g) = wp_model m.
  Proof.
    intros HN HT [A1 A2 A3 A4 A5 A6 A7] HO. split.
    - split; [split; [exact HN|]; split; [exact Logic.I|]; cbn [runtime tz_normalizer]; rewrite A1; reflexivity|]. split; [split; [exact HT|]; split; [exact Logic.I|]; cbn [runtime tz_pre_tokenizer]; rewrite A2; reflexivity|].
      split; [exists (pf_build P), any_norm, taken; exact A7|]. eapply Forall_impl; [|exact HO]. intros t (H1 & H2 & H3 & _). auto.
    - cbn [runtime tz_model]. rewrite A3. reflexivity.
  Qed.

  Lemma specials_bracketed prefix offered : Forall (harmless P prefix) offered -> Forall (fun tk => at_special tk = true -> bracketed (pf_pre P) prefix (at_content tk)) offered.
  Proof. intros F. eapply Forall_impl; [|exact F]. intros t (_ & _ & _ & H). exact H. Qed.

  (** Without post-processor, and special tokens left out. *)
  Lemma words_bare t m TN nz TP offered s ot add c d y :
    word_tokenizer t (wp_vocabulary m) TN nz TP PtBert offered -> tz_model t = wp_model m -> sound_wordpiece m ->
    w_prefix m = c :: d :: y -> punctuation TP c -> is_ws TP 32%N = true -> tidy (w_unk m) ->
    Forall (fun tk => at_special tk = true -> bracketed TP (w_prefix m) (at_content tk)) offered ->
    text s -> none_in offered s -> tz_post t = None -> tz_truncation t = None -> tz_padding t = None ->
    exists e ws os, encode t ot (Single (Raw s)) add = Ok e /\
      words_of TP PtBert (normal_text TN nz s) ws /\ told m (av_is_special (tz_added t) (w_unk m)) ws os /\
      AddedModel.decode (wp_vocabulary m) (tz_added t) (Some (DecodersModel.decode_tokens (DWordPiece (w_prefix m) true))) true (ids e) = Ok (sentence true os).
  Proof.
    intros WT TM SW PX PC W32 TD SB TX NI Ho Ht Hp.
    destruct (wordpiece_ids t m TN nz TP PtBert offered s 0%N ot WT TM SW Ht TX NI) as (e & ws & tss & E & W0 & TW & FM & F & I & N0).
    { intros ws W0. apply bert_words in W0. eapply Forall_impl; [|exact W0]. intros w [X _]. exact X. }
    pose proof (bert_words _ _ _ W0) as BW.
    destruct (tell_words m (tz_added t) true (w_prefix m) true ws tss eq_refl) as (os & TO & DE); auto; try discriminate.
    { apply SW. }
    { eapply Forall_impl; [|exact BW]. intros w B. split; [rewrite PX; eapply bert_not_continued; eauto|intros _; eapply bert_neat; eauto]. }
    { intros _ w x xs Iw EW Nx. apply Forall_forall. intros v Iv. rewrite Forall_forall in BW. specialize (BW w Iw).
      destruct (av_is_special (tz_added t) v) eqn:ES; [|reflexivity]. exfalso. unfold av_is_special in ES. apply str_mem_In in ES.
      destruct WT as (_ & _ & (build & NF & taken & AH) & _). destruct (special_history _ _ _ _ _ _ AH) as (_ & SH & _). destruct (SH _ ES) as (tk & I1 & I2 & I3 & _).
      rewrite Forall_forall in SB. specialize (SB tk I1 I2). rewrite I3 in SB. exact (bert_pieces_ordinary _ _ _ _ _ _ BW EW Nx Iv SB). }
    exists e, ws, os. split; [|split; [exact W0|split; [exact TO|]]].
    - cbn [encode encode_single]. rewrite E. cbn [other bind]. unfold post_process, truncate_step, process_step, pad_step. rewrite Ho, Ht, Hp. reflexivity.
    - rewrite I. exact DE.
  Qed.

  Lemma unk_dropped g o m post offered taken : bert_config g o m post offered taken -> w_unk m <> [] -> (exists t, In t taken /\ at_special t = true /\ at_content t = w_unk m) -> av_is_special (g_added g) (w_unk m) = true.
  Proof.
    intros [_ _ _ _ _ _ H] NE (t & IT & ST & CT). unfold av_is_special. apply str_mem_In. destruct (special_history _ _ _ _ _ _ H) as (_ & _ & S). rewrite <- CT. apply S; [exact IT|exact ST|congruence].
  Qed.
End config.

(** ** Words whose characters are all in the vocabulary can be spelt *)
Section spelling.
  Context (vocab : list (str * N)) (prefix : str).
  Notation known := (WordPieceSpec.known vocab).
  Notation entry := (WordPieceSpec.entry prefix).

  Lemma known_or t : known t \/ ~ known t.
  Proof. unfold WordPieceSpec.known. destruct (aget str_eqb t vocab) as [i|]; [left; eauto|right; intros (i & H); discriminate]. Qed.

  Lemma longest_exists pre rest : forall n, (exists y z, rest = y ++ z /\ y <> [] /\ known (entry pre y) /\ n + List.length y = List.length rest) ->
    exists x, WordPieceSpec.longest vocab prefix pre rest x.
  Proof.
    induction n as [n IH] using lt_wf_ind. intros (y & z & E & NE & K & L).
    assert (D : (exists y' z', rest = y' ++ z' /\ List.length y < List.length y' /\ known (entry pre y')) \/ ~ exists y' z', rest = y' ++ z' /\ List.length y < List.length y' /\ known (entry pre y')).
    { clear IH. assert (G : forall k, (exists y' z', rest = y' ++ z' /\ List.length y < List.length y' <= k /\ known (entry pre y')) \/ ~ exists y' z', rest = y' ++ z' /\ List.length y < List.length y' <= k /\ known (entry pre y')).
      { induction k as [|k [G|G]]; [right; intros (a & b & _ & X & _); lia| |].
        - left. destruct G as (a & b & E1 & L1 & K1). exists a, b. split; [exact E1|]. split; [lia|exact K1].
        - destruct (known_or (entry pre (firstn (S k) rest))) as [K1|K1], (le_lt_dec (List.length y) k) as [L1|L1], (le_lt_dec (S k) (List.length rest)) as [L2|L2];
            try (left; exists (firstn (S k) rest), (skipn (S k) rest); split; [symmetry; apply firstn_skipn|]; rewrite firstn_length; split; [lia|exact K1]).
          all: right; intros (a & b & E1 & L3 & K2); destruct (Nat.eq_dec (List.length a) (S k)) as [E2|N2]; [|apply G; exists a, b; split; [exact E1|]; split; [lia|exact K2]].
          all: try (rewrite E1, app_length in L2; lia); try lia.
          all: apply K1; rewrite E1, <- E2, firstn_app, firstn_all, Nat.sub_diag, app_nil_r; exact K2. }
      destruct (G (List.length rest)) as [(a & b & E1 & L1 & K1)|G1]; [left; exists a, b; split; [exact E1|]; split; [lia|exact K1]|].
      right. intros (a & b & E1 & L1 & K1). apply G1. exists a, b. split; [exact E1|]. split; [rewrite E1, app_length; lia|exact K1]. }
    destruct D as [(y' & z' & E1 & L1 & K1)|D].
    - apply (IH (List.length rest - List.length y')); [|exists y', z'; split; [exact E1|]; split; [destruct y'; [cbn in L1; lia|discriminate]|split; [exact K1|]]].
      + assert (List.length y' <= List.length rest) by (rewrite E1, app_length; lia). lia.
      + assert (List.length y' <= List.length rest) by (rewrite E1, app_length; lia). lia.
    - exists y. split; [exact NE|]. split; [eauto|]. split; [exact K|]. intros a b E1 N1 K1. destruct (le_lt_dec (List.length a) (List.length y)) as [X|X]; [exact X|]. exfalso. apply D. eauto.
  Qed.

  Lemma greedy_exists : forall n pre rest, List.length rest <= n -> (forall p c q, rest = p ++ c :: q -> known (entry (pre ++ p) [c])) -> exists xs, WordPieceSpec.greedy vocab prefix pre rest xs.
  Proof.
    induction n as [|n IH]; intros pre rest L H; (destruct rest as [|c q]; [exists []; constructor|]); [cbn in L; lia|].
    destruct (longest_exists pre (c :: q) (List.length q)) as (x & LX).
    { exists [c], q. split; [reflexivity|]. split; [discriminate|]. split; [|cbn; lia]. specialize (H [] c q eq_refl). rewrite app_nil_r in H. exact H. }
    pose proof LX as (NX & (rest' & E) & _ & _). destruct (IH (pre ++ x) rest') as (xs & G).
    - assert (X : List.length (c :: q) = List.length (x ++ rest')) by congruence. rewrite app_length in X. cbn in X, L. destruct x; [congruence|]. cbn in X. lia.
    - intros p d r E2. rewrite <- app_assoc. apply (H (x ++ p) d r). rewrite E, E2, app_assoc. reflexivity.
    - exists (x :: xs). rewrite E. constructor; [rewrite <- E; exact LX|exact G].
  Qed.
End spelling.

(** ** Training *)
Section training.
  Context {W : Type} (P : platform W).
  Context (by_count : list (char * N) -> list (char * N)) (pop : list tmerge -> option (tmerge * list tmerge)).
  Context (HC : count_sort by_count) (HQ : train_heap pop).

  Lemma bert_training_words o s : tables_ok (pf_norm P) -> sane (pf_pre P) -> text s ->
    exists ws, training_words (runtime P (empty_bert o)) s = Ok ws /\ words_of (pf_pre P) PtBert (normal_text (pf_norm P) (bert_normal o) s) ws.
  Proof.
    intros HN HT TX. set (mv := wp_vocabulary (wp_given [] o)).
    assert (MO : model_ok mv) by (apply wp_model_ok; constructor). assert (DN : AddedSpec.dense mv) by (intros t i H; discriminate H).
    destruct (word_extract (pf_space P) (pf_word P) (pf_build P) mv av_new [] [] (pf_norm P) (bert_normal o) s HN Logic.I MO DN (ah_new _ _ _) eq_refl) as (p1 & E1 & I1 & M1); [intros i t H; discriminate H|exact TX|constructor|].
    assert (SO1 : Forall section_ok (pt_splits p1)).
    { destruct (normal_text (pf_norm P) (bert_normal o) s) as [|c x]; [rewrite M1; constructor|]. destruct M1 as (z & -> & _ & _ & LZ). constructor; [|constructor]. intros _. exact LZ. }
    destruct (C65_pieces (pf_pre P) PtBert s p1 HT Logic.I I1 SO1) as (p2 & gs & E2 & G & F & _).
    destruct (splits_texts (pt_original p2) (pt_splits p2) 0) as (r & ER & EW).
    exists (map (fun x => fst (fst x)) r). split.
    - unfold training_words, do_pre_tokenize. change (tz_normalizer (runtime P (empty_bert o))) with (SpmTripModel.run_normalizer (pf_norm P) (bert_normal o)).
      cbn [runtime empty_bert tz_space tz_word tz_added tz_pre_tokenizer g_pre g_added option_map pre_of]. rewrite E1. cbn [bind]. rewrite E2. cbn [bind]. unfold get_splits. rewrite ER. reflexivity.
    - rewrite EW. destruct (normal_text (pf_norm P) (bert_normal o) s) as [|c x] eqn:EN.
      + rewrite M1 in F. inversion F; subst gs. cbn [concat] in G. rewrite G. reflexivity.
      + destruct M1 as (z & EZ & TZ & NZ & _). rewrite EZ in F. inversion F as [|? g ? ? PG F']; subst. inversion F'; subst. cbn [concat] in G. rewrite app_nil_r in G.
        unfold piece_group in PG. rewrite TZ, NZ in PG. destruct PG as [PG1 PG2]. rewrite G. exact PG2.
  Qed.

  Lemma trained_bert o vs mf limit initial prefix special red g' :
    tables_ok (pf_norm P) -> sane (pf_pre P) -> Forall text (leaves red) ->
    (forall wc, counted (training_words (runtime P (empty_bert o))) (leaves red) wc -> small_corpus wc) ->
    config_train P by_count pop (TWordPiece (bert_trainer vs mf limit initial prefix special)) special red (empty_bert o) = Ok g' ->
    exists m wc al, counted (training_words (runtime P (empty_bert o))) (leaves red) wc /\
      bert_config P g' o m None special special /\ w_unk m = str_of (wo_unk o) /\ w_prefix m = prefix /\ w_max m = 100 /\
      model_ok (wp_vocabulary m) /\ dense (wp_vocabulary m) /\ NoDup (map fst (w_vocab m)) /\ NoDup (map snd (w_vocab m)) /\
      (forall t, In t special -> wp_token_to_id m (at_content t) <> None) /\
      kept_alphabet (bert_trainer vs mf limit initial prefix special) wc al /\
      (forall w n, In (w, n) wc -> List.length w <= 100 -> (forall c, In c w -> In c al) -> spelt m w).
  Proof.
    intros HN HT TX SC TR.
    assert (NP : forall s, In s (leaves red) -> training_words (runtime P (empty_bert o)) s <> Panic).
    { intros s IS. rewrite Forall_forall in TX. destruct (bert_training_words o s HN HT (TX s IS)) as (ws & -> & _). discriminate. }
    destruct (trained_model P by_count pop _ _ _ _ _ NP TR) as (wc & C & L). cbn [mt_learn any_teacher empty_bert g_model] in L. apply bind_ok in L. destruct L as ([m sp] & L & X). injection X as X.
    unfold wp_train in L. apply bind_ok in L. destruct L as ([b sp'] & L & Y). injection Y as Y _.
    assert (DO : b_dropout bpe_default <> DOutside) by discriminate. specialize (SC wc C). destruct (trained_vocab_ok _ _ _ _ _ _ _ HC HQ SC DO L) as [MO DN].
    destruct (run_result _ _ _ _ _ _ _ HC HQ SC L) as (al & st & wtu & st' & PP & E & V & EB).
    destruct (loop_tokens pop _ wc al st wtu _ st' HQ PP E) as (_ & _ & rest & ER & _). pose proof (p_alphabet _ _ _ _ _ PP) as KA. pose proof (p_first _ _ _ _ _ PP) as FT. pose proof (p_spelled _ _ _ _ _ PP) as SP.
    set (tr := bert_trainer vs mf limit initial prefix special) in *.
    assert (D1 : NoDup (map fst (b_vocab b))) by exact (mo_keys _ MO).
    assert (D2 : NoDup (map snd (b_vocab b))) by (rewrite EB; apply indexed_ids_nodup).
    assert (VO : vocabulary b (v_words (ts_voc st'))) by (rewrite EB; apply result_vocabulary; apply V).
    assert (PB : b_prefix b = Some prefix) by (rewrite EB; reflexivity).
    assert (IN : forall t, In t (v_words (ts_voc st)) -> exists i, aget str_eqb t (b_vocab b) = Some i).
    { intros t I. assert (I' : In t (v_words (ts_voc st'))) by (rewrite ER; apply in_or_app; left; exact I). apply In_nth_error in I'. destruct I' as (k & Hk). exists (N.of_nat k).
      apply (In_aget str_eqb str_eqb_eq); [exact D1|]. apply VO. rewrite Nat2N.id. exact Hk. }
    assert (EM : m = mkWP (b_vocab b) (str_of (wo_unk o)) prefix 100).
    { rewrite <- Y. unfold from_bpe. cbn [w_vocab w_prefix w_unk w_max wp_given]. rewrite PB. reflexivity. }
    destruct FT as (extra & EF & _).
    exists m, wc, al. split; [exact C|]. split; [|rewrite EM; cbn [w_unk w_prefix w_max w_vocab]; split; [reflexivity|split; [reflexivity|split; [reflexivity|]]]].
    - destruct (trained_runtime P by_count pop _ _ _ _ _ TR) as (y & TY & EG). unfold TokenizerTrainModel.train in TY. cbn [te_tokenizer te_model] in TY. destruct (reduce _ _) as [wc'| |] in TY; try discriminate. unfold learn_and_add in TY. cbn [te_tokenizer te_model] in TY.
      destruct (mt_learn _ wc' _) as [m'| |]; try discriminate. cbn [with_model tz_added runtime mt_special any_teacher empty_bert g_added] in TY.
      destruct (add_tokens (pf_build P) (model_vocabulary m') _ special av_new) as [av [n|]] eqn:EA; [|discriminate]. injection TY as <-.
      assert (EM' : m' = MWordPiece m) by (rewrite X, EG; reflexivity). subst m'. rewrite EG. constructor; try reflexivity; [split; reflexivity|].
      cbn [trained_config g_added te_tokenizer with_added tz_added]. eapply (ah_add _ _ _ _ [] []); [apply ah_new|intros f _; exact Logic.I|exact EA].
    - split; [apply wp_model_ok; assumption|]. split; [exact DN|]. split; [exact D1|]. split; [exact D2|]. split; [|split; [exact KA|]].
      + intros t IT. unfold wp_token_to_id. cbn [w_vocab]. destruct (IN (at_content t)) as (i & Ei); [|congruence]. rewrite EF. apply BpeTrainProofs.distinct_in. apply in_or_app. left. apply (in_map at_content). exact IT.
      + intros w n IW LW AW. split; [exact LW|]. cbn [w_vocab w_prefix].
        assert (AC : forall c, In c al -> In [c] (v_words (ts_voc st))).
        { intros c Ic. rewrite EF. apply BpeTrainProofs.distinct_in. apply in_or_app. right. apply in_or_app. left. apply (in_map (fun c => [c])). exact Ic. }
        assert (SPW : exists sw, BpeTrainSpec.spelled tr (v_words (ts_voc st)) true w sw).
        { clear -SP IW. induction SP as [|wn sw wc ws H _ IH]; [destruct IW|]. destruct IW as [->|IW]; [exists sw; exact H|exact (IH IW)]. }
        destruct SPW as (sw & SPW).
        assert (G : forall first s ids, BpeTrainSpec.spelled tr (v_words (ts_voc st)) first s ids -> (forall c, In c s -> In c al) ->
                    forall p c q, s = p ++ c :: q -> In (affixed (Some prefix) None (if first then is_nil p else false) (is_nil q) c) (v_words (ts_voc st))).
        { clear SPW. intros first s ids SPW. induction SPW as [first|first c s i ids I1 N1 S1 IH|first c s ids I1 S1 IH]; intros A p d q EQ.
          - destruct p; discriminate.
          - destruct p as [|c' p]; injection EQ as -> EQ.
            + subst s. apply nth_error_In in N1. destruct first; exact N1.
            + specialize (IH (fun x Hx => A x (or_intror Hx)) p d q EQ). cbn [is_nil]. destruct first; exact IH.
          - exfalso. apply I1. apply AC. apply A. left. reflexivity. }
        apply (greedy_exists _ _ (List.length w)); [lia|]. intros p c q EQ. cbn [app]. unfold WordPieceSpec.known, WordPieceSpec.entry.
        specialize (G true w sw SPW AW p c q EQ). unfold affixed in G. destruct p as [|d p]; cbn [is_nil] in G; destruct q; cbn [app] in G; apply IN in G; exact G.
  Qed.
End training.
