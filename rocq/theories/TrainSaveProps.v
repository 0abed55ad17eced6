(** C80: a trained tokenizer can be saved. *)
From Coq Require Import String.
From Verif Require Import Base ListFacts StrBytes AMap EncodingModel TruncPadModel NormModel BpeWordModel BpeModel BpeSpec BpeProps BpeTrainModel BpeTrainSpec BpeTrainProofs4 BpeTrainProofs7 BpeTrainProofs8 BpeTrainProps
  PreTokModel WordPieceModel UnigramModel TrainersModel TrainersSpec TrainersProps AddedModel AddedSpec AddedProofs AddedProps TokenizerModel RoundTripModel ModelFilesModel ModelFilesSpec ComponentFilesModel ComponentFilesSpec
  TokenizerFilesModel TokenizerFilesSpec TokenizerFilesProofs TokenizerFilesProofs2 TokenizerFilesProps TokenizerTrainModel TokenizerTrainSpec TokenizerTrainProofs TokenizerTrainProps TrainSaveModel.

Section saved.
  Context {W : Type} (P : platform W) (by_count : list (char * N) -> list (char * N)) (pop : list tmerge -> option (tmerge * list tmerge)).

  (** What is trained is the tokenizer that the configuration describes. *)
  Lemma trained_runtime T special red g g' : config_train P by_count pop T special red g = Ok g' ->
    exists y, train model_vocabulary (model_tokenize P) (pf_build P) (norm_fun P g) (any_teacher by_count pop T special) red (mkTrainee (runtime P g) (g_model g)) = Trained y /\
      g' = trained_config g y.
  Proof.
    unfold config_train. destruct (train _ _ _ _ _ _ _) as [y|e y|]; intros H; try discriminate. injection H as <-. eauto.
  Qed.

  Definition swap (g : config W) (m : @model W) : config W :=
    mkConfig (g_normalizer g) (g_pre g) m (g_post g) (g_decoder g) (g_added g) (g_truncation g) (g_padding g).

  Lemma made_swap m m' g ts : made P m g ts -> ts = [] -> made P m' (swap g m') [].
  Proof.
    induction 1 as [|g ts n g' H IH E|g ts p H IH|g ts p H IH|g ts d H IH|g ts t H IH|g ts p H IH|g ts more g' n H IH E|g ts b H IH]; intros ET.
    - apply md_new.
    - specialize (IH ET). eapply md_normalizer with (n := n); [exact IH|]. unfold with_normalizer, norm_fun in *. cbn [swap g_normalizer g_pre g_model g_post g_decoder g_added g_truncation g_padding] in *.
      destruct (av_refresh_normalized (pf_build P) (option_map (content_norm P) n) (g_added g)) as [av ok]. injection E as <- ->. reflexivity.
    - exact (md_pre P m' _ [] p (IH ET)).
    - exact (md_post P m' _ [] p (IH ET)).
    - exact (md_decoder P m' _ [] d (IH ET)).
    - exact (md_truncation P m' _ [] t (IH ET)).
    - exact (md_padding P m' _ [] p (IH ET)).
    - apply app_eq_nil in ET. destruct ET as [-> ->]. specialize (IH eq_refl). apply (md_add P m' _ [] [] (swap g' m') n IH).
      unfold tokenizer_add, add_tokens in *. cbn [add_loop swap g_added] in *. destruct (av_refresh (pf_build P) (g_added g)) as [av ok]. injection E as <- E. destruct ok; [|discriminate E]. injection E as <-. reflexivity.
    - exact (md_encode_special P m' _ [] b (IH ET)).
  Qed.
  Lemma made_model m g ts : made P m g ts -> g_model g = m.
  Proof.
    induction 1 as [|g ts n g' H IH E|g ts p H IH|g ts p H IH|g ts d H IH|g ts t H IH|g ts p H IH|g ts more g' n H IH E|g ts b H IH]; try exact IH.
    - reflexivity.
    - unfold with_normalizer in E. destruct (av_refresh_normalized _ _ _) as [av ok] in E. injection E as <- _. exact IH.
    - unfold tokenizer_add in E. destruct (add_tokens _ _ _ _ _) as [av r] in E. injection E as <- _. exact IH.
  Qed.
  Lemma enumerate_keys l : forall i m, NoDup (map fst m) -> NoDup (map fst (enumerate_into i l m)).
  Proof. induction l as [|x l IH]; intros i m D; cbn [enumerate_into]; [exact D|]. apply IH. apply aset_nodup; [apply str_eqb_eq|exact D]. Qed.

  (** No id above 2^32 - 2. *)
  Definition ids_fit (g : config W) : Prop := forall t i, tk_token_to_id (model_vocabulary (g_model g)) (g_added g) t = Some i -> (i < 2 ^ 32 - 1)%N.

  Lemma trained_made T special red m g g' : made P m g [] -> config_train P by_count pop T special red g = Ok g' -> made P (g_model g') g' special.
  Proof.
    intros M H. destruct (trained_runtime _ _ _ _ _ H) as (y & E & ->). clear H. unfold train in E. cbn [te_tokenizer te_model] in E.
    destruct (reduce _ _) as [wc| |] in E; try discriminate. unfold learn_and_add in E. cbn [te_tokenizer te_model] in E.
    destruct (mt_learn _ wc (g_model g)) as [m'| |]; try discriminate. cbn [with_model tz_added runtime mt_special any_teacher] in E.
    destruct (add_tokens (pf_build P) (model_vocabulary m') (norm_fun P g) special (g_added g)) as [av [n|]] eqn:EA; [|discriminate]. injection E as <-.
    unfold trained_config. cbn [te_model te_tokenizer tz_added with_added].
    apply (md_add P m' (swap g m') [] special _ n); [eapply made_swap; eauto|]. unfold tokenizer_add, norm_fun. unfold norm_fun in EA. cbn [swap g_added g_model g_normalizer]. rewrite EA. reflexivity.
  Qed.

  (** A tokenizer without added tokens is trained: if the new model can be saved,
      the tokenizer can, and the file loads as a tokenizer that answers alike
      (but for [encode_special_tokens], which is not saved). *)
  Theorem C80_saved T special red m g g' : platform_ok P -> made P m g [] -> parts_valid P g ->
    config_train P by_count pop T special red g = Ok g' -> model_sound P (g_model g') -> consistent special -> ids_fit g' ->
    exists j, tokenizer_to_json P g' = Ok j /\ forall j', rearranged j j' ->
      exists g'', tokenizer_of_json P j' = Ok g'' /\ same_answers P (encode_special_tokens g' false) g''.
  Proof.
    intros PO M PV H MS CO FI. pose proof (trained_made _ _ _ _ _ _ M H) as M'. apply (C72_tokenizer P (g_model g') g' special); try assumption.
    pose proof (fa_inv _ _ _ _ (made_facts P (g_model g') (sound_ok P _ MS) (proj1 (proj2 MS)) _ _ M' CO)) as AI.
    destruct (trained_runtime _ _ _ _ _ H) as (y & _ & EG). destruct PV as (P1 & P2 & P3 & P4 & P5 & P6 & _).
    unfold parts_valid. assert (EX : forall i t, aget N.eqb i (av_map_r (g_added g')) = Some t -> fits 32 i).
    { intros i t Hi. apply (ai_bwd _ _ AI) in Hi. destruct Hi as [Hi _]. assert (X : (i < 2 ^ 32 - 1)%N); [|unfold fits; lia].
      apply (FI (at_content t)). unfold tk_token_to_id, av_token_to_id. rewrite Hi. reflexivity. }
    rewrite EG in EX |- *. cbn [trained_config g_normalizer g_pre g_post g_decoder g_truncation g_padding]. auto 10.
  Qed.

  (** Who trains, and on what: the model is what the trainer makes of the counted words. *)
  Lemma trained_model T special red g g' : (forall s, In s (leaves red) -> training_words (runtime P g) s <> Panic) ->
    config_train P by_count pop T special red g = Ok g' ->
    exists wc, counted (training_words (runtime P g)) (leaves red) wc /\ mt_learn (any_teacher by_count pop T special) wc (g_model g) = Ok (g_model g').
  Proof.
    intros NP H. destruct (trained_runtime _ _ _ _ _ H) as (y & E & ->).
    destruct (C77_trained model_vocabulary (model_tokenize P) (pf_build P) (norm_fun P g) _ _ (mkTrainee (runtime P g) (g_model g)) _ NP E) as (wc & n & C & L & _). eauto.
  Qed.

  Lemma table_sound (vocab : list (str * N)) toks : NoDup (map fst vocab) -> NoDup toks ->
    (forall t i, aget str_eqb t vocab = Some i <-> nth_error toks (N.to_nat i) = Some t) -> (forall t i, In (t, i) vocab -> (i < 2 ^ 32 - 1)%N) ->
    writable vocab /\ forall t i, aget str_eqb t vocab = Some i -> (i < N.of_nat (List.length vocab))%N.
  Proof.
    intros D DT A F. assert (IA : forall t i, In (t, i) vocab -> nth_error toks (N.to_nat i) = Some t) by (intros t i X; apply A, (In_aget str_eqb str_eqb_eq); assumption).
    split; [split; [exact D|split; [|exact F]]|].
    - clear F A DT. induction vocab as [|[t i] vocab IH]; [constructor|]. cbn [map fst snd] in *. inversion D as [|? ? D1 D2]; subst. constructor; [|apply IH; [exact D2|intros u j X; apply IA; right; exact X]].
      intros X. apply in_map_iff in X. destruct X as ([u j] & E & X). cbn [snd] in E. subst j. pose proof (IA u i (or_intror X)) as Y. rewrite (IA t i (or_introl eq_refl)) in Y. injection Y as <-. apply D1. apply (in_map fst) in X. exact X.
    - intros t i X. apply A in X. assert (L : N.to_nat i < List.length toks) by (apply nth_error_Some; congruence).
      assert (IN : incl toks (map fst vocab)).
      { intros u Hu. apply In_nth_error in Hu. destruct Hu as (k & Hk). rewrite <- (Nat2N.id k) in Hk. apply A in Hk. apply (aget_In str_eqb str_eqb_eq) in Hk. apply (in_map fst) in Hk. exact Hk. }
      pose proof (NoDup_incl_length DT IN) as LE. rewrite map_length in LE. lia.
  Qed.

  (** *** BPE *)
  Lemma text_pairs_nodup toks (ms : list ((N * N) * N)) : NoDup toks -> NoDup (map fst ms) ->
    Forall (fun m => (exists t, nth_error toks (N.to_nat (fst (fst m))) = Some t) /\ (exists t, nth_error toks (N.to_nat (snd (fst m))) = Some t)) ms -> NoDup (map (text_pair toks) ms).
  Proof.
    intros D. assert (INJ : forall i j t, nth_error toks (N.to_nat i) = Some t -> nth_error toks (N.to_nat j) = Some t -> i = j).
    { intros i j t X Y. rewrite NoDup_nth_error in D. assert (Z : N.to_nat i = N.to_nat j); [|lia]. apply D; [apply nth_error_Some|]; congruence. }
    induction ms as [|[[a b] r] ms IH]; intros D2 F; [constructor|]. cbn [map fst] in *. inversion D2 as [|? ? D3 D4]; subst. apply Forall_cons_iff in F. destruct F as [[(ta & A) (tb & B)] F].
    constructor; [|apply IH; assumption]. intros X. apply D3. apply in_map_iff in X. destruct X as ([[a' b'] r'] & E & X). rewrite Forall_forall in F. destruct (F _ X) as [(ta' & A') (tb' & B')].
    unfold text_pair in E. cbn [fst snd] in *. rewrite (nth_error_nth _ _ _ A), (nth_error_nth _ _ _ B), (nth_error_nth _ _ _ A'), (nth_error_nth _ _ _ B') in E. injection E as -> ->.
    rewrite (INJ _ _ _ A A'), (INJ _ _ _ B B'). apply (in_map fst) in X. exact X.
  Qed.

  Lemma bpe_trained_sound tr wc b b' sp : count_sort by_count -> train_heap pop -> small_corpus wc -> plain tr -> b_dropout b <> DOutside ->
    do_train by_count pop tr wc b = Ok (b', sp) -> (forall t i, In (t, i) (b_vocab b') -> (i < 2 ^ 32 - 1)%N) -> model_sound P (MBpe b').
  Proof.
    intros HC HP SC PL DO H F. destruct (trained_vocab_ok _ _ _ _ _ _ _ HC HP SC DO H) as [MO DN].
    destruct (run_result _ _ _ _ _ _ _ HC HP SC H) as (al & st & wtu & st' & PR & E & V & EQ).
    destruct (plain_loop pop tr wc al st wtu _ st' HP PL PR E) as (_ & _ & D2 & _ & _).
    destruct (loop_tokens pop tr wc al st wtu _ st' HP PR E) as (_ & MK & _). pose proof (loop_prefixed pop tr wc al st wtu _ st' HP PR E) as PX.
    assert (X : exists vocab merges prefix, built vocab merges prefix b' /\ writable vocab /\ NoDup merges).
    { exists (b_vocab b'), (map (text_pair (v_words (ts_voc st'))) (ts_merges st')), (tr_prefix tr). split; [|split].
      - split; [exact (mo_keys _ MO)|]. exists (b_dropout b), (b_unk b), (tr_suffix tr), (b_fuse b), (b_fallback b), (b_ignore_merges b). rewrite EQ. apply rebuild; [apply V|exact MK|exact PX|exact DO].
      - split; [exact (mo_keys _ MO)|]. split; [|exact F]. rewrite EQ. apply indexed_ids_nodup.
      - apply text_pairs_nodup; [apply V|exact D2|]. eapply Forall_impl; [|exact MK]. intros m (ta & tb & t & A & B & _). eauto. }
    split; [|split; [exact DN|exact X]]. cbn [savable]. destruct X as (vocab & merges & prefix & B & WR & _). eauto.
  Qed.

  (** No id above 2^32 - 2 in the vocabulary of the model and among the added tokens. *)
  Definition ids_below (g : config W) : Prop := ids_fit g /\ forall t i, In (t, i) (get_vocab (model_vocabulary (g_model g)) (g_added g) false) -> (i < 2 ^ 32 - 1)%N.

  (** After training BPE without affixes. *)
  Theorem C80_bpe tr special red b g g' : count_sort by_count -> train_heap pop -> plain tr -> b_dropout b <> DOutside ->
    platform_ok P -> made P (MBpe b) g [] -> parts_valid P g -> consistent special ->
    (forall s, In s (leaves red) -> training_words (runtime P g) s <> Panic) ->
    (forall wc, counted (training_words (runtime P g)) (leaves red) wc -> small_corpus wc) ->
    config_train P by_count pop (TBpe tr) special red g = Ok g' -> ids_below g' ->
    exists j, tokenizer_to_json P g' = Ok j /\ forall j', rearranged j j' ->
      exists g'', tokenizer_of_json P j' = Ok g'' /\ same_answers P (encode_special_tokens g' false) g''.
  Proof.
    intros HC HP PL DO PO M PV CO NP SC H [F1 F2]. eapply C80_saved; try eassumption.
    destruct (trained_model _ _ _ _ _ NP H) as (wc & C & L). assert (EM : g_model g = MBpe b) by exact (made_model _ _ _ M). rewrite EM in L. cbn [mt_learn any_teacher] in L.
    apply bind_ok in L. destruct L as ([b' sp] & L & X). injection X as X. rewrite <- X in *. cbn [model_vocabulary get_vocab bpe_vocabulary mv_vocab] in F2.
    eapply bpe_trained_sound; eauto.
  Qed.

  (** After training WordPiece. *)
  Theorem C80_wordpiece tr special red w g g' : count_sort by_count -> train_heap pop -> (N.of_nat (w_max w) < 2 ^ 64)%N ->
    platform_ok P -> made P (MWordPiece w) g [] -> parts_valid P g -> consistent special ->
    (forall s, In s (leaves red) -> training_words (runtime P g) s <> Panic) ->
    (forall wc, counted (training_words (runtime P g)) (leaves red) wc -> small_corpus wc) ->
    config_train P by_count pop (TWordPiece tr) special red g = Ok g' -> ids_below g' ->
    exists j, tokenizer_to_json P g' = Ok j /\ forall j', rearranged j j' ->
      exists g'', tokenizer_of_json P j' = Ok g'' /\ same_answers P (encode_special_tokens g' false) g''.
  Proof.
    intros HC HP MX PO M PV CO NP SC H [F1 F2]. eapply C80_saved; try eassumption.
    destruct (trained_model _ _ _ _ _ NP H) as (wc & C & L). assert (EM : g_model g = MWordPiece w) by exact (made_model _ _ _ M). rewrite EM in L. cbn [mt_learn any_teacher] in L.
    apply bind_ok in L. destruct L as ([w' sp] & L & X). injection X as X. rewrite <- X in *. cbn [model_vocabulary get_vocab mv_vocab] in F2.
    unfold wp_train in L. apply bind_ok in L. destruct L as ([b sp'] & L & Y). injection Y as Y _. subst w'. cbn [w_vocab from_bpe] in F2.
    assert (DO : b_dropout bpe_default <> DOutside) by discriminate. destruct (trained_vocab_ok _ _ _ _ _ _ _ HC HP (SC wc C) DO L) as [MO DN].
    assert (WR : writable (b_vocab b)).
    { split; [exact (mo_keys _ MO)|]. split; [|exact F2]. destruct (run_result _ _ _ _ _ _ _ HC HP (SC wc C) L) as (al & st & wtu & st' & _ & _ & _ & ->). apply indexed_ids_nodup. }
    split; [split; [exact WR|exact MX]|]. split; [|exact Logic.I]. intros t i Hi. apply (DN t i Hi).
  Qed.

  (** After training a word-level model: the special tokens are not words of the corpus. *)
  Theorem C80_wordlevel tr special red l g g' :
    platform_ok P -> made P (MWordLevel l) g [] -> parts_valid P g -> consistent special ->
    (forall s, In s (leaves red) -> training_words (runtime P g) s <> Panic) ->
    (forall wc, counted (training_words (runtime P g)) (leaves red) wc -> Forall (fun wn => unicode_text (fst wn)) wc /\ forall t n, In t (lt_special tr) -> ~ In (t, n) wc) ->
    NoDup (lt_special tr) ->
    config_train P by_count pop (TWordLevel tr) special red g = Ok g' -> ids_below g' ->
    exists j, tokenizer_to_json P g' = Ok j /\ forall j', rearranged j j' ->
      exists g'', tokenizer_of_json P j' = Ok g'' /\ same_answers P (encode_special_tokens g' false) g''.
  Proof.
    intros PO M PV CO NP SC DS H [F1 F2]. eapply C80_saved; try eassumption.
    destruct (trained_model _ _ _ _ _ NP H) as (wc & C & L). assert (EM : g_model g = MWordLevel l) by exact (made_model _ _ _ M). rewrite EM in L. cbn [mt_learn any_teacher] in L.
    assert (X : MWordLevel (fst (wl_train tr wc l)) = g_model g') by congruence. clear L.
    destruct (SC wc C) as [TX NS]. pose proof (C59_wordlevel tr wc l (proj1 C) TX DS) as Y.
    assert (KD : NoDup (map fst (l_vocab (fst (wl_train tr wc l))))) by (cbn [wl_train fst l_vocab]; apply enumerate_keys; constructor).
    destruct (wl_train tr wc l) as [l' sp]. cbn [fst] in *. destruct Y as (_ & _ & words & _ & _ & ND & N1 & N2); [intros t n A B; destruct (NS t n A B)|].
    rewrite <- X in *. cbn [model_vocabulary get_vocab mv_vocab] in F2. destruct (table_sound (l_vocab l') _ KD ND N1 F2) as [WR DN].
    split; [exact WR|]. split; [exact DN|exact Logic.I].
  Qed.

  (** After training Unigram (its numeric parts are arguments, see TrainersModel): no
      piece comes twice and the scores are finite. *)
  Theorem C80_unigram is_nan missing nan enough rescore seed e_step prune arrange fuel tr special red u g g' :
    any_order arrange -> only_drops prune ->
    platform_ok P -> made P (MUnigram u) g [] -> parts_valid P g -> consistent special ->
    (forall s, In s (leaves red) -> training_words (runtime P g) s <> Panic) ->
    config_train P by_count pop (TUnigram (fun wc =>
      match uni_train (pf_arith P) is_nan missing nan enough rescore seed e_step prune arrange fuel tr wc with Ok (m, _) => Ok m | Err _ => Err tt | Panic => Panic end)) special red g = Ok g' ->
    ids_below g' ->
    (forall m, g_model g' = MUnigram m -> NoDup (map fst (u_vocab m)) /\ Forall (fun e => f_finite (pf_floats P) (snd e) = true) (u_vocab m)) ->
    exists j, tokenizer_to_json P g' = Ok j /\ forall j', rearranged j j' ->
      exists g'', tokenizer_of_json P j' = Ok g'' /\ same_answers P (encode_special_tokens g' false) g''.
  Proof.
    intros AO OD PO M PV CO NP H [F1 F2] FF. eapply C80_saved; try eassumption.
    destruct (trained_model _ _ _ _ _ NP H) as (wc & C & L). assert (EM : g_model g = MUnigram u) by exact (made_model _ _ _ M). rewrite EM in L. cbn [mt_learn any_teacher] in L.
    destruct (uni_train _ _ _ _ _ _ _ _ _ _ fuel tr wc) as [[m sp]| |] eqn:ET; try discriminate L. cbn [bind] in L. injection L as X.
    destruct (uni_run _ _ _ _ _ _ _ _ _ _ _ _ _ _ _ AO OD ET) as (_ & _ & _ & _ & _ & _ & _ & _ & _ & _ & _ & _ & (fb & UF) & _).
    symmetry in X. destruct (FF m X) as [ND FI]. rewrite X in *.
    assert (IDS : forall t i, uni_token_to_id m t = Some i -> (i < N.of_nat (List.length (u_vocab m)))%N).
    { intros t i Hi. pose proof (C59_unigram_ids _ _ _ _ _ _ _ _ _ _ _ _ _ _ _ AO OD ET ND) as (_ & N1 & _). apply N1 in Hi.
      assert (Y : N.to_nat i < List.length (map fst (u_vocab m))) by (apply nth_error_Some; congruence). rewrite map_length in Y. lia. }
    split; [|split; [exact IDS|exact ND]]. split; [eauto|]. split; [exact FI|].
    destruct (List.length (u_vocab m)) as [|n] eqn:EL; [cbn; lia|].
    pose proof (C59_unigram_ids _ _ _ _ _ _ _ _ _ _ _ _ _ _ _ AO OD ET ND) as (_ & N1 & _).
    destruct (nth_error (map fst (u_vocab m)) n) as [t|] eqn:EN; [|apply nth_error_None in EN; rewrite map_length in EN; lia].
    rewrite <- (Nat2N.id n) in EN. apply N1 in EN. cbn [model_vocabulary get_vocab mv_vocab] in F2. unfold uni_token_to_id in EN. apply (aget_In str_eqb str_eqb_eq) in EN. apply F2 in EN. lia.
  Qed.
End saved.

(** A trainer of another kind: an error, and nothing has changed. *)
Theorem C80_wrong_trainer {W} (P : platform W) by_count pop T special red g : (forall s, In s (leaves red) -> training_words (runtime P g) s <> Panic) ->
  match T, g_model g with TBpe _, MBpe _ | TWordPiece _, MWordPiece _ | TWordLevel _, MWordLevel _ | TUnigram _, MUnigram _ => False | _, _ => True end ->
  train model_vocabulary (model_tokenize P) (pf_build P) (norm_fun P g) (any_teacher by_count pop T special) red (mkTrainee (runtime P g) (g_model g)) =
    Failed EInside (mkTrainee (runtime P g) (g_model g)) /\
  config_train P by_count pop T special red g = Err tt.
Proof.
  intros NP K. assert (X : train model_vocabulary (model_tokenize P) (pf_build P) (norm_fun P g) (any_teacher by_count pop T special) red (mkTrainee (runtime P g) (g_model g)) =
    Failed EInside (mkTrainee (runtime P g) (g_model g))).
  { apply C77_trainer_error; [exact NP|]. intros wc _. exists tt. cbn [mt_learn any_teacher te_model]. destruct T, (g_model g); try reflexivity; contradiction. }
  split; [exact X|]. unfold config_train. rewrite X. reflexivity.
Qed.

(** ** Examples and findings *)
Definition ts_start : config Z := with_pre_tokenizer (tokenizer_new (MBpe bpe_default)) (Some CpWhitespaceSplit).
Definition ts_corpus : reduction str := RNode (RLeaf [97; 97; 98; 32; 97; 97; 98]%N) (RLeaf [97; 98]%N).
Definition ts_special : added_token := AddedProps.special_token [63%N].
Example C80_example : platform_ok ex_platform /\ made ex_platform (MBpe bpe_default) ts_start [] /\ parts_valid ex_platform ts_start /\ consistent [ts_special] /\
  (forall s, In s (leaves ts_corpus) -> training_words (runtime ex_platform ts_start) s <> Panic) /\
  (forall wc, counted (training_words (runtime ex_platform ts_start)) (leaves ts_corpus) wc -> small_corpus wc) /\
  exists g', config_train ex_platform sort_count pop_first (TBpe ex_bpe_tr) [ts_special] ts_corpus ts_start = Ok g' /\ ids_below g' /\
    exists e, encode (runtime ex_platform g') OByte (Single (Raw [97; 97; 98; 32; 63; 97; 98]%N)) true = Ok e /\ ids e = [4; 0; 3]%N.
Proof.
  assert (NP : forall s, In s (leaves ts_corpus) -> training_words (runtime ex_platform ts_start) s <> Panic) by (intros s [<-|[<-|[]]]; vm_compute; discriminate).
  split; [apply ex_platform_ok|]. split; [apply md_pre, md_new|]. split.
  { repeat split; try exact Logic.I. intros i t H. discriminate H. }
  split; [intros t u [<-|[]] [<-|[]] _; reflexivity|]. split; [exact NP|]. split.
  - intros wc C. assert (Q : Permutation [([97; 97; 98], 2); ([97; 98], 1)]%N wc).
    { eapply counted_same; [|exact C]. eapply reduce_counted; [exact NP|]. vm_compute. reflexivity. }
    unfold small_corpus. replace (corpus_size wc) with (corpus_size [([97; 97; 98], 2); ([97; 98], 1)]%N); [vm_compute; reflexivity|].
    clear -Q. unfold corpus_size. induction Q; cbn [fold_right]; lia.
  - eexists. split; [vm_compute; reflexivity|]. split.
    + split.
      * intros t i H. unfold tk_token_to_id, av_token_to_id in H. cbn [g_added av_map model_vocabulary g_model bpe_vocabulary mv_token_to_id] in H. unfold b_id in H. cbn [b_vocab] in H.
        destruct (aget str_eqb t _) as [j|] eqn:E in H.
        { apply (aget_In str_eqb str_eqb_eq) in E. injection H as ->. cbn in E. repeat (destruct E as [E|E]; [injection E as _ <-; reflexivity|]). destruct E. }
        apply (aget_In str_eqb str_eqb_eq) in H. cbn in H. repeat (destruct H as [H|H]; [injection H as _ <-; reflexivity|]). destruct H.
      * intros t i H. cbn in H. repeat (destruct H as [H|H]; [injection H as _ <-; reflexivity|]). destruct H.
    + eexists. split; vm_compute; reflexivity.
Qed.

(** A token added before training has another id after saving and loading: training
    keeps its id, which the new model gives to "a". *)
Definition ts_early : config Z := fst (tokenizer_add ex_platform (with_pre_tokenizer (tokenizer_new (MWordLevel (mkWL [] [63%N]))) (Some CpWhitespaceSplit)) [TokenizerFilesProps.ex_plain]).
Theorem C80_early_refuted : exists g' j g'',
  made ex_platform (MWordLevel (mkWL [] [63%N])) ts_early [ex_plain] /\
  config_train ex_platform sort_count pop_first (TWordLevel (mkWlt 0 9 [])) [] (RLeaf [97; 32; 98]%N) ts_early = Ok g' /\
  tokenizer_to_json ex_platform g' = Ok j /\ tokenizer_of_json ex_platform j = Ok g'' /\
  tk_token_to_id (model_vocabulary (g_model g')) (g_added g') (at_content ex_plain) = Some 0%N /\
  tk_token_to_id (model_vocabulary (g_model g'')) (g_added g'') (at_content ex_plain) = Some 2%N.
Proof.
  eexists _, _, _. split; [eapply (md_add _ _ _ []); [apply md_pre, md_new|vm_compute; reflexivity]|].
  split; [vm_compute; reflexivity|]. split; [vm_compute; reflexivity|]. split; [vm_compute; reflexivity|]. split; vm_compute; reflexivity.
Qed.
