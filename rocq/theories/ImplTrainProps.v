(** C101: training through the ready-made tokenizers follows the settings. *)
From Coq Require Import String.
From Verif Require Import Base ListFacts StrBytes Utf8 AMap EncodingModel NormModel BpeWordModel BpeWordSpec BpeModel BpeSpec BpeProofs BpeProps BpeTrainModel BpeTrainSpec
  BpeTrainProofs BpeTrainProofs2 BpeTrainProofs3 BpeTrainProofs4 BpeTrainProofs5 BpeTrainProofs6 BpeTrainProofs7 BpeTrainProofs8 BpeTrainProofs9 BpeTrainProps TrainersModel
  NormalizersModel NormalizersSpec DecodersModel DecodersSpec RoundTripSpec AddedModel AddedSpec AddedProofs AddedProofs2 AddedProps WordPieceModel WordTripSpec WordTripProofs
  PreTokModel PreTokenizersModel PreTokenizersSpec TokenizerModel RoundTripModel WordTripModel
  ModelFilesModel ComponentFilesModel TokenizerFilesModel TokenizerFilesSpec TokenizerTrainModel TokenizerTrainSpec TokenizerTrainProofs TokenizerTrainProps TrainSaveModel TrainSaveProps
  PySettingsModel ImplModel ImplSpec ImplProofs ImplProps ImplBertModel ImplBertSpec ImplBertProofs ImplBertProps ImplCharModel ImplCharSpec ImplCharProofs ImplCharProps ImplSpmModel ImplSpmSpec ImplSpmProofs ImplSpmProps ImplTrainSpec.
From Verif Require NormalizersProps.

Lemma taught_by by_count pop tr wc m0 m sp : count_sort by_count -> train_heap pop -> small_corpus wc -> do_train by_count pop tr wc m0 = Ok (m, sp) -> taught tr wc m.
Proof.
  intros HC HP SC H. destruct (run_result _ _ _ _ _ _ _ HC HP SC H) as (al & st & wtu & st' & P & E & V & ->).
  destruct (loop_tokens pop tr wc al st wtu _ st' HP P E) as (LE & _).
  exists (v_words (ts_voc st')), (v_words (ts_voc st)), al, (combine (ts_words st) (map snd wc)), (ts_merges st').
  split; [apply result_vocabulary; apply V|]. split; [exact (p_alphabet _ _ _ _ _ P)|]. split; [exact (p_first _ _ _ _ _ P)|].
  assert (SP : spelled_corpus tr (v_words (ts_voc st)) wc (combine (ts_words st) (map snd wc))).
  { pose proof (p_spelled _ _ _ _ _ P) as F. unfold spelled_corpus. clear - F. induction F as [|wn w wc ws Sp _ IH]; cbn [map combine]; constructor; [|exact IH]. cbn [fst snd]. auto. }
  split; [exact SP|]. split; [apply final_merges_ranked; reflexivity|]. split; [exact LE|]. split.
  - intros PL. destruct (plain_loop pop tr wc al st wtu _ st' HP PL P E) as (D1 & D2 & _). split; [exact D1|]. intros w n s Hw Hs. apply D2. apply ids_of_in. exists w, s. split; [eapply in_combine_l; exact Hw|]. auto.
  - intros (D1 & D2). exists (combine (ts_words st') (map snd wc)).
    apply (loop_learns pop HP tr (map snd wc) (Z.of_N (corpus_size wc)) (turns (ts_queue st) (ts_words st)) st st' (fun _ => 1) (ids_of (ts_words st)) [] (ts_merges st')); [exact (p_ginv _ _ _ _ _ P)|eapply prepared_finv; exact P|exact E|rewrite (p_merges _ _ _ _ _ P); reflexivity|exact D1|].
    intros x Hx. apply ids_of_in in Hx. destruct Hx as (w & s & Hw & Hs & <-). pose proof (g_len _ _ _ (p_ginv _ _ _ _ _ P)) as L.
    apply In_nth_error in Hw. destruct Hw as (i & Hi). assert (Li : i < List.length (map snd wc)) by (rewrite <- L; apply nth_error_Some; congruence).
    destruct (nth_error (map snd wc) i) as [n|] eqn:En; [|apply nth_error_None in En; lia]. eapply D2; [eapply nth_combine_in; eassumption|exact Hs].
Qed.

Lemma vocabulary_size m toks : NoDup (map fst (b_vocab m)) -> vocabulary m toks -> List.length (b_vocab m) = List.length toks.
Proof.
  intros ND (D & VO & _). apply Nat.le_antisymm.
  - rewrite <- (map_length fst). apply NoDup_incl_length; [exact ND|]. intros x Ix. apply in_map_iff in Ix. destruct Ix as ([t i] & <- & I). apply VO in I. eapply nth_error_In; exact I.
  - rewrite <- (map_length fst (b_vocab m)). apply NoDup_incl_length; [exact D|]. intros x Ix. apply In_nth_error in Ix. destruct Ix as (k & Hk). apply in_map_iff. exists (x, N.of_nat k). split; [reflexivity|]. apply VO. rewrite Nat2N.id. exact Hk.
Qed.

Section trained.
  Context {W : Type} (P : platform W) (by_count : list (char * N) -> list (char * N)) (pop : list tmerge -> option (tmerge * list tmerge)).
  Context (HC : count_sort by_count) (HQ : train_heap pop).

  Lemma added_after T special red g g' : g_added g = av_new -> config_train P by_count pop T special red g = Ok g' ->
    exists norm n, add_tokens (pf_build P) (model_vocabulary (g_model g')) norm special av_new = (g_added g', Some n).
  Proof.
    intros AV TR. destruct (trained_runtime P by_count pop _ _ _ _ _ TR) as (y & TY & EG). unfold TokenizerTrainModel.train in TY. cbn [te_tokenizer te_model] in TY. destruct (reduce _ _) as [wc'| |] in TY; try discriminate. unfold learn_and_add in TY. cbn [te_tokenizer te_model] in TY.
    destruct (mt_learn _ wc' _) as [m'| |]; try discriminate. cbn [with_model tz_added runtime mt_special any_teacher] in TY. rewrite AV in TY.
    destruct (add_tokens (pf_build P) (model_vocabulary m') _ special av_new) as [av [k|]] eqn:EA; [|discriminate]. injection TY as <-.
    rewrite EG. cbn [trained_config g_model te_model g_added te_tokenizer with_added tz_added]. eauto.
  Qed.
End trained.

Lemma adding_some cur ts n after : adding cur ts n after -> forall c t, after c = Some t -> cur c = Some t \/ exists t', In t' ts /\ at_content t' = c.
Proof.
  induction 1 as [cur|cur t ts n after _ _ IH|cur t ts n after _ _ IH]; intros c u E; [left; exact E| |].
  - destruct (IH c u E) as [X|(t' & X & Y)]; [|right; exists t'; split; [right; exact X|exact Y]]. unfold upd in X. destruct (str_eqb c (at_content t)) eqn:EC; [|left; exact X].
    apply str_eqb_eq in EC. right. exists t. split; [left; reflexivity|symmetry; exact EC].
  - destruct (IH c u E) as [X|(t' & X & Y)]; [left; exact X|right; exists t'; split; [right; exact X|exact Y]].
Qed.

(** Added tokens that the model has: no more tokens than in the model, and its ids. *)
Lemma all_known build mv norm special av n : model_ok mv -> AddedSpec.dense mv -> add_tokens build mv norm special av_new = (av, Some n) ->
  (forall t, In t special -> mv_token_to_id mv (at_content t) <> None) -> forall b, get_vocab_size mv av b = Ok (mv_size mv).
Proof.
  intros MO DN EA KN b. assert (H0 : added_history build mv (fun _ => True) av_new [] []) by apply ah_new.
  assert (H : added_history build mv (fun _ => True) av ([] ++ special) ([] ++ special)) by (eapply ah_add; [apply ah_new|intros f _; exact Logic.I|exact EA]).
  destruct b; [|reflexivity]. destruct (C29_vocab_size _ _ _ _ _ _ true MO H) as [-> ND]. f_equal. rewrite (mo_size _ MO). apply Nat.le_antisymm.
  - rewrite <- (map_length fst), <- (map_length fst (mv_vocab mv)). apply NoDup_incl_length; [exact ND|]. intros x Ix. apply in_map_iff in Ix. destruct Ix as ([t i] & <- & I). cbn [fst].
    apply (C29_vocab_entries _ _ _ _ _ _ _ _ MO H) in I. unfold tk_token_to_id, av_token_to_id in I. apply in_map_iff. destruct (aget str_eqb t (av_map av)) as [j|] eqn:EJ.
    + destruct (ai_fwd _ _ (history_inv _ _ _ _ _ _ MO DN H) _ _ EJ) as (tok & ER & EC). destruct (C26_count _ _ _ _ _ _ _ _ _ _ MO DN H0 EA) as (after & AD & RA).
      assert (RT : after t = Some tok) by (rewrite <- RA; unfold registered; rewrite EJ; exact ER). destruct (adding_some _ _ _ _ AD _ _ RT) as [X|(t' & It & <-)]; [discriminate X|].
      specialize (KN t' It). destruct (mv_token_to_id mv (at_content t')) as [k|] eqn:EK; [|congruence]. exists (at_content t', k). split; [reflexivity|]. apply (mo_read _ MO). exact EK.
    + exists (t, i). split; [reflexivity|]. apply (mo_read _ MO). exact I.
  - rewrite <- (map_length fst (get_vocab _ _ _)), <- (map_length fst (mv_vocab mv)). apply NoDup_incl_length; [apply (mo_keys _ MO)|]. intros x Ix. apply in_map_iff in Ix. destruct Ix as ([t i] & <- & I). cbn [fst].
    apply (mo_read _ MO) in I. apply (C25_model_tokens_keep_their_id _ _ _ _ _ _ _ _ H) in I. apply (C29_vocab_entries _ _ _ _ _ _ _ _ MO H) in I. apply (in_map fst) in I. exact I.
Qed.

Section follows.
  Context {W : Type} (P : platform W) (by_count : list (char * N) -> list (char * N)) (pop : list tmerge -> option (tmerge * list tmerge)).
  Context (HC : count_sort by_count) (HQ : train_heap pop).

  Lemma special_ids tr wc m0 m sp special : small_corpus wc -> do_train by_count pop tr wc m0 = Ok (m, sp) -> tr_special tr = map at_content special ->
    (forall t, In t special -> In (at_content t) (map fst (b_vocab m))) /\
    (NoDup (map at_content special) -> forall k t, nth_error special k = Some t -> In (at_content t, N.of_nat k) (b_vocab m)).
  Proof.
    intros SC L ES. split.
    - destruct (run_result _ _ _ _ _ _ _ HC HQ SC L) as (al & st & wtu & st' & PP & E & V & EB). destruct (loop_tokens pop _ wc al st wtu _ st' HQ PP E) as (_ & _ & rest & ER & _).
      assert (VO : vocabulary m (v_words (ts_voc st'))) by (rewrite EB; apply result_vocabulary; apply V). destruct (p_first _ _ _ _ _ PP) as (extra & EF & _).
      intros t It. assert (I' : In (at_content t) (v_words (ts_voc st'))).
      { rewrite ER, EF. apply in_or_app. left. apply BpeTrainProofs.distinct_in. apply in_or_app. left. rewrite ES. apply in_map. exact It. }
      apply In_nth_error in I'. destruct I' as (k & Hk). apply in_map_iff. exists (at_content t, N.of_nat k). split; [reflexivity|]. apply VO. rewrite Nat2N.id. exact Hk.
    - intros D k t Hk. refine (proj2 (C37_special _ _ _ _ _ _ _ k (at_content t) HC HQ SC L _ _)); rewrite ES; [exact D|]. apply map_nth_error. exact Hk.
  Qed.

  (** Any tokenizer with a BPE model and without added tokens, trained on any texts. *)
  Theorem C101_bpe tr special texts g g' m0 :
    g_model g = MBpe m0 -> b_dropout m0 <> DOutside -> g_added g = av_new -> tr_special tr = map at_content special ->
    (forall s, In s (leaves texts) -> training_words (runtime P g) s <> Panic) -> (forall wc, counted (training_words (runtime P g)) (leaves texts) wc -> small_corpus wc) ->
    config_train P by_count pop (TBpe tr) special texts g = Ok g' ->
    exists m wc, g_model g' = MBpe m /\ counted (training_words (runtime P g)) (leaves texts) wc /\ taught tr wc m /\ first_ids special g' /\ all_tokens g' (List.length (b_vocab m)).
  Proof.
    intros EM DO AV ES NP SC TR. destruct (added_after P by_count pop _ _ _ _ _ AV TR) as (norm & n & EA).
    destruct (trained_model P by_count pop _ _ _ _ _ NP TR) as (wc & C & L). rewrite EM in L. cbn [mt_learn any_teacher] in L. apply bind_ok in L. destruct L as ([m sp] & L & X).
    assert (EM' : g_model g' = MBpe m) by congruence. clear X. specialize (SC wc C). destruct (trained_vocab_ok _ _ _ _ _ _ _ HC HQ SC DO L) as [MO DN]. destruct (special_ids _ _ _ _ _ _ SC L ES) as [KS KI].
    exists m, wc. split; [exact EM'|]. split; [exact C|]. split; [eapply taught_by; eauto|]. unfold first_ids, all_tokens. rewrite EM' in *. cbn [model_vocabulary] in *. split.
    - intros D k t Hk. assert (H : added_history (pf_build P) (bpe_vocabulary m) (fun _ => True) (g_added g') ([] ++ special) ([] ++ special)) by (eapply ah_add; [apply ah_new|intros f _; exact Logic.I|exact EA]).
      apply (C25_model_tokens_keep_their_id _ _ _ _ _ _ _ _ H). apply (mo_read _ MO). exact (KI D k t Hk).
    - apply (all_known _ _ _ _ _ _ MO DN EA). intros t It. specialize (KS t It). apply in_map_iff in KS. destruct KS as ([x i] & EX & I). cbn [fst] in EX. subst x.
      assert (Y : mv_token_to_id (bpe_vocabulary m) (at_content t) = Some i) by (apply (mo_read _ MO); exact I). congruence.
  Qed.

  (** The same with a WordPiece model. *)
  Theorem C101_wordpiece tr special texts g g' m0 :
    g_model g = MWordPiece m0 -> g_added g = av_new -> tr_special tr = map at_content special ->
    (forall s, In s (leaves texts) -> training_words (runtime P g) s <> Panic) -> (forall wc, counted (training_words (runtime P g)) (leaves texts) wc -> small_corpus wc) ->
    config_train P by_count pop (TWordPiece tr) special texts g = Ok g' ->
    exists m b wc, g_model g' = MWordPiece m /\ counted (training_words (runtime P g)) (leaves texts) wc /\ taught tr wc b /\ w_vocab m = b_vocab b /\ w_unk m = w_unk m0 /\ w_max m = w_max m0 /\
      first_ids special g' /\ all_tokens g' (List.length (w_vocab m)).
  Proof.
    intros EM AV ES NP SC TR. destruct (added_after P by_count pop _ _ _ _ _ AV TR) as (norm & n & EA).
    destruct (trained_model P by_count pop _ _ _ _ _ NP TR) as (wc & C & L). rewrite EM in L. cbn [mt_learn any_teacher] in L. apply bind_ok in L. destruct L as ([m sp] & L & X).
    assert (EM' : g_model g' = MWordPiece m) by congruence. clear X. unfold wp_train in L. apply bind_ok in L. destruct L as ([b sp'] & L & Y). injection Y as Y _.
    assert (DO : b_dropout bpe_default <> DOutside) by discriminate. specialize (SC wc C). destruct (trained_vocab_ok _ _ _ _ _ _ _ HC HQ SC DO L) as [MO DN]. destruct (special_ids _ _ _ _ _ _ SC L ES) as [KS KI].
    assert (EV : w_vocab m = b_vocab b) by (rewrite <- Y; reflexivity).
    assert (MO' : model_ok (wp_vocabulary m)).
    { apply wp_model_ok; rewrite EV; [exact (mo_keys _ MO)|]. destruct (run_result _ _ _ _ _ _ _ HC HQ SC L) as (al & st & wtu & st' & PP & E & V & EB). rewrite EB. apply indexed_ids_nodup. }
    assert (DN' : AddedSpec.dense (wp_vocabulary m)).
    { intros t i Hi. apply (mo_read _ MO') in Hi. cbn [wp_vocabulary mv_vocab mv_size] in *. rewrite EV in *. apply (DN t i). apply (mo_read _ MO). exact Hi. }
    exists m, b, wc. split; [exact EM'|]. split; [exact C|]. split; [eapply taught_by; eauto|]. split; [exact EV|]. split; [rewrite <- Y; reflexivity|]. split; [rewrite <- Y; reflexivity|].
    unfold first_ids, all_tokens. rewrite EM' in *. cbn [model_vocabulary] in *. split.
    - intros D k t Hk. assert (H : added_history (pf_build P) (wp_vocabulary m) (fun _ => True) (g_added g') ([] ++ special) ([] ++ special)) by (eapply ah_add; [apply ah_new|intros f _; exact Logic.I|exact EA]).
      apply (C25_model_tokens_keep_their_id _ _ _ _ _ _ _ _ H). apply (mo_read _ MO'). cbn [wp_vocabulary mv_vocab]. rewrite EV. exact (KI D k t Hk).
    - apply (all_known _ _ _ _ _ _ MO' DN' EA). intros t It. specialize (KS t It). apply in_map_iff in KS. destruct KS as ([x i] & EX & I). cbn [fst] in EX. subst x.
      assert (Z : mv_token_to_id (wp_vocabulary m) (at_content t) = Some i) by (apply (mo_read _ MO'); cbn [wp_vocabulary mv_vocab]; rewrite EV; exact I). congruence.
  Qed.

  (** Without affixes there are at most as many tokens as asked for, unless the special
      tokens and the kept characters are more; and the steps are the greedy ones. *)
  Theorem C101_plain tr wc m : plain tr -> NoDup (map fst (b_vocab m)) -> taught tr wc m ->
    exists al first cp ms toks cp', kept_alphabet tr wc al /\ first_tokens tr wc al first /\ spelled_corpus tr first wc cp /\ ranked m ms /\ vocabulary m toks /\ learns tr first cp ms toks cp' /\
      List.length (b_vocab m) <= Nat.max (tr_vocab_size tr) (List.length (tr_special tr) + List.length al).
  Proof.
    intros PL ND (toks & first & al & cp & ms & V & KA & FT & SP & RK & LE & N1 & N2). destruct (N2 (N1 PL)) as (cp' & LN).
    exists al, first, cp, ms, toks, cp'. do 6 (split; [assumption|]). rewrite (vocabulary_size _ _ ND V). pose proof (first_tokens_plain _ _ _ _ PL FT) as EF.
    assert (L : List.length first <= List.length (tr_special tr) + List.length al); [|lia]. rewrite EF.
    etransitivity; [|apply Nat.eq_le_incl; rewrite <- (map_length (fun c => [c]) al), <- app_length; reflexivity].
    apply NoDup_incl_length; [apply BpeTrainProofs.distinct_nodup|]. intros x. apply BpeTrainProofs.distinct_in.
  Qed.

  (** ** The ready-made tokenizers *)
  (** Byte-level: every byte is a token, then what is learnt. *)
  Theorem C101_byte_level vocab merges o g vocab_size min_frequency heap items heap' special texts g1 : sane (pf_pre P) ->
    byte_level_new P vocab merges o = Ok g -> plain_options o -> Forall text (leaves texts) -> (5 * N.of_nat (total_bytes (leaves texts)) < 2 ^ 31)%N ->
    collect true heap items = (heap', Ok special) -> byte_level_train P by_count pop vocab_size min_frequency heap items texts g = Ok g1 ->
    exists m wc, g_model g1 = MBpe m /\ counted (training_words (runtime P g)) (leaves texts) wc /\
      taught (mkTrainer min_frequency vocab_size (map at_content special) None byte_alphabet None None None) wc m /\ first_ids special g1 /\ all_tokens g1 (List.length (b_vocab m)).
  Proof.
    intros HT H PO TX SM CL TR. destruct (new_plain P _ _ _ _ PO H) as (m0 & EM & ->). unfold byte_level_train in TR. rewrite CL in TR.
    refine (C101_bpe (byte_level_trainer vocab_size min_frequency special) special texts (constructed m0 o) g1 m0 eq_refl (model_dropout _ _ _ _ EM) eq_refl eq_refl _ _ TR).
    - intros s IS. rewrite Forall_forall in TX. destruct (words_image P m0 o s HT (TX s IS)) as (ws & -> & _). discriminate.
    - intros wc CW. unfold small_corpus. pose proof (counted_bound P m0 o (leaves texts) wc HT TX CW). lia.
  Qed.

  (** BERT. *)
  Theorem C101_bert o g vocab_size min_frequency limit initial prefix heap items heap' special texts g1 :
    bert_new P None o = Ok g -> collect true heap items = (heap', Ok special) ->
    bert_train P by_count pop vocab_size min_frequency limit initial prefix heap items texts g = Ok g1 ->
    tables_ok (pf_norm P) -> sane (pf_pre P) -> Forall text (leaves texts) -> (forall wc, counted (training_words (runtime P g)) (leaves texts) wc -> small_corpus wc) ->
    exists m b wc, g_model g1 = MWordPiece m /\ counted (training_words (runtime P g)) (leaves texts) wc /\
      taught (mkTrainer min_frequency vocab_size (map at_content special) (Some limit) initial (Some prefix) None None) wc b /\ w_vocab m = b_vocab b /\ w_unk m = str_of (wo_unk o) /\ w_max m = 100 /\
      first_ids special g1 /\ all_tokens g1 (List.length (w_vocab m)).
  Proof.
    intros H CL TR HN HT TX SC. rewrite new_empty in H. injection H as <-. unfold bert_train in TR. rewrite CL in TR.
    refine (C101_wordpiece (bert_trainer vocab_size min_frequency limit initial prefix special) special texts (empty_bert o) g1 (wp_given [] o) eq_refl eq_refl eq_refl _ SC TR).
    intros s IS. rewrite Forall_forall in TX. destruct (bert_training_words P o s HN HT (TX s IS)) as (ws & -> & _). discriminate.
  Qed.

  (** BPE with a suffix. *)
  Theorem C101_char o g vocab_size min_frequency limit initial suffix heap items heap' special texts g1 :
    char_new P None None o = Ok g -> collect true heap items = (heap', Ok special) ->
    char_train P by_count pop vocab_size min_frequency limit initial (Some suffix) heap items texts g = Ok g1 ->
    tables_ok (pf_norm P) -> sane (pf_pre P) -> Forall text (leaves texts) -> (forall wc, counted (training_words (runtime P g)) (leaves texts) wc -> small_corpus wc) ->
    exists m wc, g_model g1 = MBpe m /\ counted (training_words (runtime P g)) (leaves texts) wc /\
      taught (mkTrainer min_frequency vocab_size (map at_content special) (Some limit) initial None (Some suffix) None) wc m /\ first_ids special g1 /\ all_tokens g1 (List.length (b_vocab m)).
  Proof.
    intros H CL TR HN HT TX SC. destruct (new_scratch P _ _ H) as (ns & m0 & EN & EM & _ & DO & IG & ->). unfold char_train in TR. rewrite CL in TR.
    refine (C101_bpe (char_trainer vocab_size min_frequency limit initial suffix special) special texts (scratch o ns m0) g1 m0 eq_refl DO eq_refl eq_refl _ SC TR).
    intros s IS. rewrite Forall_forall in TX. destruct (char_training_words P o ns m0 s EN HN HT (TX s IS)) as (ws & -> & _). discriminate.
  Qed.

  (** SentencePiece BPE. *)
  Theorem C101_spm vocab merges o g rep vocab_size min_frequency limit initial heap items heap' special texts g1 :
    vocab = None \/ merges = None -> spm_bpe_new P vocab merges o = Ok g -> collect true heap items = (heap', Ok special) ->
    spm_bpe_train P by_count pop vocab_size min_frequency limit initial heap items texts g = Ok g1 ->
    tables_ok (pf_norm P) -> sane (pf_pre P) -> so_rep o = [rep] -> is_scalar rep = true ->
    Forall text (leaves texts) -> (forall wc, counted (training_words (runtime P g)) (leaves texts) wc -> small_corpus wc) ->
    exists m wc, g_model g1 = MBpe m /\ counted (training_words (runtime P g)) (leaves texts) wc /\
      taught (mkTrainer min_frequency vocab_size (map at_content special) (Some limit) initial None None None) wc m /\ first_ids special g1 /\ all_tokens g1 (List.length (b_vocab m)).
  Proof.
    intros VN H CL TR HN HT ER RS TX SC. destruct (bpe_scratch P _ _ _ _ VN H) as (m0 & rep' & ER' & C & AV & DO). assert (rep' = rep) by congruence. subst rep'.
    unfold spm_bpe_train in TR. rewrite CL in TR.
    refine (C101_bpe (spm_bpe_trainer vocab_size min_frequency limit initial special) special texts g g1 m0 (sg_model _ _ _ _ _ _ _ _ C) DO AV eq_refl _ SC TR).
    intros s IS. rewrite Forall_forall in TX. destruct (spm_training_words P g CnNFKC rep _ _ s C AV HN HT Logic.I RS (TX s IS)) as (ws & -> & _). discriminate.
  Qed.
End follows.

(** ** Examples *)
Definition tokens_after (vocab_size : nat) (min_frequency : N) : res unit nat :=
  match spm_bpe_train sp_platform sort_count pop_first vocab_size min_frequency 1000 [] [] sp_unk sp_texts sp_scratch with
  | Ok g => get_vocab_size (model_vocabulary (g_model g)) (g_added g) true
  | _ => Panic
  end.
(** "ab ab" and "ab b": one special token and three characters, then "ab" and "_ab" if
    there is room and they are frequent enough. *)
Example C101_example : spm_bpe_new sp_platform None None spm_defaults = Ok sp_scratch /\ collect true [] sp_unk = ([], Ok [special_text (key "<unk>")]) /\
  (forall wc, counted (training_words (runtime sp_platform sp_scratch)) (leaves sp_texts) wc -> small_corpus wc) /\ Forall text (leaves sp_texts) /\
  tokens_after 30 2 = Ok 6 /\ tokens_after 5 2 = Ok 5 /\ tokens_after 30 4 = Ok 4.
Proof.
  split; [vm_compute; reflexivity|]. split; [reflexivity|]. split; [exact sp_counted|]. split; [repeat constructor|]. split; [vm_compute; reflexivity|]. split; vm_compute; reflexivity.
Qed.
(** More tokens than asked for. *)
Theorem C101_size_refuted : tokens_after 2 2 = Ok 4.
Proof. vm_compute. reflexivity. Qed.
