(** Proofs about the ready-made BPE tokenizer with an end of word suffix. *)
From Coq Require Import String.
From Verif Require Import Base ListFacts StrBytes AMap EncodingModel NormModel BpeWordModel BpeWordSpec BpeModel BpeSpec BpeProofs BpeProps BpeTrainModel BpeTrainSpec BpeTrainProofs BpeTrainProofs4 BpeTrainProofs8 BpeTrainProps TrainersModel
  DecodersModel DecodersSpec AddedModel AddedSpec AddedProofs AddedProofs2 AddedProps NormalizersModel NormalizersSpec PreTokModel PreTokenizersModel PreTokenizersSpec TokenizerModel
  PreTokSpec PreTokenizersProps RoundTripModel RoundTripSpec RoundTripProofs SpmTripSpec SpmTripProofs WordTripModel WordTripSpec WordTripProofs WordTripProps CharTripModel CharTripSpec CharTripProofs CharTripProps
  ModelFilesModel ComponentFilesModel TokenizerFilesModel TokenizerFilesSpec TokenizerTrainModel TokenizerTrainSpec TokenizerTrainProofs TokenizerTrainProps
  TrainSaveModel TrainSaveProps PySettingsModel ImplModel ImplSpec ImplProofs ImplBertModel ImplBertSpec ImplBertProofs ImplCharModel ImplCharSpec.

(** ** Special tokens are not among the tokens of words *)
Lemma unspecial sf w vs av : ended sf w vs -> (forall c, In c (av_special av) -> unended sf c /\ ~ occurs c w) -> Forall (fun v => av_is_special av v = false) vs.
Proof.
  intros (xs & x & -> & EW & NX & N) H. apply Forall_forall. intros v I. destruct (av_is_special av v) eqn:ES; [|reflexivity]. exfalso. unfold av_is_special in ES. apply str_mem_In in ES. destruct (H v ES) as [H1 H2].
  apply in_app_or in I. destruct I as [I|[<-|[]]]; [|exact (H1 x eq_refl)]. apply H2. apply List.in_split in I. destruct I as (l1 & l2 & ->). rewrite concat_app in EW. cbn [concat] in EW.
  exists (concat l1), (concat l2 ++ x). rewrite EW, <- !app_assoc. reflexivity.
Qed.

(** Decoding the words of a text, with or without the special tokens. *)
Lemma char_decoded t pop m draws vocab merges sf TN nz TP p offered s ot add skip :
  word_tokenizer t (bpe_vocabulary m) TN nz TP p offered -> heap_ok pop -> tz_model t = bpe_model pop m draws -> char_bpe vocab merges sf m ->
  text s -> none_in offered s ->
  (forall ws, words_of TP p (normal_text TN nz s) ws -> Forall (fun w => in_alphabet vocab sf w /\ ends_once sf w /\ forall tk, In tk offered -> at_special tk = true -> at_content tk <> [] -> unended sf (at_content tk) /\ ~ occurs (at_content tk) w) ws) ->
  tz_post t = None -> tz_truncation t = None -> tz_padding t = None ->
  exists e ws, encode t ot (Single (Raw s)) add = Ok e /\ words_of TP p (normal_text TN nz s) ws /\
    AddedModel.decode (bpe_vocabulary m) (tz_added t) (Some (DecodersModel.decode_tokens (DBpe sf))) skip (ids e) = if is_nil ws then Panic else Ok (join_spaces ws).
Proof.
  intros WT HP TM CB TX NI NW Ho Ht Hp.
  destruct (char_ids pop vocab merges sf m draws t TN nz TP p offered s 0%N ot WT HP TM CB Ht TX NI) as (e & ws & tss & E & W & TW & FM & F & I & N).
  { intros ws W. eapply Forall_impl; [|exact (NW ws W)]. intros w [X _]. exact X. }
  exists e, ws. split; [|split; [exact W|]].
  - cbn [encode encode_single]. rewrite E. cbn [other bind]. unfold post_process, truncate_step, process_step, pad_step. rewrite Ho, Ht, Hp. reflexivity.
  - specialize (NW ws W). unfold AddedModel.decode. rewrite I, kept_values by exact N.
    assert (K : filter (fun v => negb (skip && av_is_special (tz_added t) v)) (map t_value (concat tss)) = concat (map (map t_value) tss)).
    { rewrite concat_map. apply filter_all. rewrite Forall_forall in NW. destruct WT as (_ & _ & (build & NF & taken & AH) & _). destruct (special_history _ _ _ _ _ _ AH) as (_ & SH & _).
      assert (G : forall w vs, In w ws -> ended sf w vs -> Forall (fun v => av_is_special (tz_added t) v = false) vs).
      { intros w vs IW EW. apply (unspecial sf w); [exact EW|]. intros c Ic. destruct (SH c Ic) as (tk & T1 & T2 & <- & T4). destruct (NW w IW) as (_ & _ & X). apply X; assumption. }
      clear -F G. induction F as [|w vs ws vss EV F IH]; cbn [concat]; [constructor|]. apply Forall_app. split.
      - eapply Forall_impl; [|exact (G w vs (or_introl eq_refl) EV)]. intros v ->. rewrite andb_false_r. reflexivity.
      - apply IH. intros w' vs' I'. apply G. right. exact I'. }
    rewrite K. unfold DecodersModel.decode_tokens. cbn [decode_chain]. unfold bpe_decode. destruct ws as [|w ws].
    + inversion F as [H|]. cbn [concat is_nil bind]. reflexivity.
    + replace (is_nil (concat (map (map t_value) tss))) with false.
      * cbn [bind is_nil]. rewrite (words_back sf (w :: ws)); [reflexivity|apply CB|exact F|]. eapply Forall_impl; [|exact NW]. intros w' (_ & X & _). exact X.
      * inversion F as [|? vs ? vss (xs & x & -> & _) F' EQ1 EQ2]. destruct xs; reflexivity.
Qed.

(** A token that begins with a punctuation mark and has more is in no word of BERT. *)
Lemma apart_absent TP w u : bert_word TP w -> (exists c d y, u = c :: d :: y /\ punctuation TP c) -> ~ occurs u w.
Proof.
  intros (NW & _ & H) (c & d & y & -> & PC) (a & b & E). destruct H as [(e & -> & _)|Q].
  - apply (f_equal (@List.length _)) in E. rewrite !app_length in E. cbn [List.length] in E. lia.
  - rewrite Forall_forall in Q. apply (Q c); [|exact PC]. rewrite E. apply in_or_app. right. left. reflexivity.
Qed.

(** ** The configuration *)
Section config.
  Context {W : Type} (P : platform W).

  Definition char_setting (ns : list norm_config) : option norm_config := match ns with [] => None | [n] => Some n | _ => Some (CnSequence ns) end.
  Record char_config (g : config W) (o : char_options) (m : bpe) (offered taken : list added_token) : Prop := {
    cc_normal : exists ns, char_normalizers o = Ok ns /\ g_normalizer g = char_setting ns;
    cc_pre : g_pre g = Some (if co_spaces_only o then CpWhitespaceSplit else CpBert);
    cc_model : g_model g = MBpe m;
    cc_post : g_post g = None;
    cc_decoder : g_decoder g = Some (CdBpe (co_suffix o));
    cc_plain : g_truncation g = None /\ g_padding g = None;
    cc_history : added_history (pf_build P) (bpe_vocabulary m) any_norm (g_added g) offered taken }.

  Lemma char_extended g o m offered taken ts g' : char_config g o m offered taken -> extended P g ts g' -> char_config g' o m (offered ++ ts) (taken ++ ts).
  Proof.
    intros C X. induction X as [|ts g1 more g2 n X IH H|ts g1 b X IH].
    - rewrite !app_nil_r. exact C.
    - unfold tokenizer_add in H. destruct IH as [A1 A2 A3 A4 A5 A6 A7].
      destruct (add_tokens (pf_build P) (model_vocabulary (g_model g1)) (norm_fun P g1) more (g_added g1)) as [av r] eqn:EA. injection H as <- ->. constructor; try assumption.
      rewrite A3 in EA. cbn [set_added g_added]. rewrite !app_assoc. eapply ah_add; [exact A7|intros f _; exact Logic.I|exact EA].
    - destruct IH as [A1 A2 A3 A4 A5 A6 A7]. constructor; try assumption. cbn [encode_special_tokens set_added g_added]. apply ah_encode_special. exact A7.
  Qed.

  Lemma char_steps_of E o ns : char_normalizers o = Ok ns -> map (norm_of E) ns = char_steps o.
  Proof.
    unfold char_normalizers, char_steps, unicode_form, unicode_normalizer. intros H.
    assert (R : map (norm_of E) ((if co_bert o then [CnBert true true None false] else []) ++ (if co_lowercase o then [CnLowercase] else [])) = (if co_bert o then [NBert true true None false] else []) ++ (if co_lowercase o then [NLowercase] else [])).
    { destruct (co_bert o), (co_lowercase o); reflexivity. }
    destruct (co_unicode o) as [[|x l]|]; [injection H as <-; exact R| |injection H as <-; exact R].
    destruct (str_eqb (x :: l) (key "nfc")); [injection H as <-; cbn [map norm_of app]; rewrite R; reflexivity|].
    destruct (str_eqb (x :: l) (key "nfd")); [injection H as <-; cbn [map norm_of app]; rewrite R; reflexivity|].
    destruct (str_eqb (x :: l) (key "nfkc")); [injection H as <-; cbn [map norm_of app]; rewrite R; reflexivity|].
    destruct (str_eqb (x :: l) (key "nfkd")); [injection H as <-; cbn [map norm_of app]; rewrite R; reflexivity|discriminate].
  Qed.
  Lemma char_normal_of g o ns : char_normalizers o = Ok ns -> g_normalizer g = char_setting ns -> tz_normalizer (runtime P g) = SpmTripModel.run_normalizer (pf_norm P) (char_normal o).
  Proof.
    intros H E. pose proof (char_steps_of (pf_engines P) o ns H) as M. unfold char_normal. rewrite <- M. cbn [runtime tz_normalizer]. rewrite E. destruct ns as [|n [|n' ns]]; reflexivity.
  Qed.
  Lemma char_usable o : NormalizersSpec.usable (char_normal o).
  Proof.
    assert (U : Forall NormalizersSpec.usable (char_steps o)).
    { unfold char_steps, unicode_form. repeat (apply Forall_app; split).
      - destruct (co_unicode o) as [n|]; [|constructor]. destruct (str_eqb n (key "nfc")), (str_eqb n (key "nfd")), (str_eqb n (key "nfkc")), (str_eqb n (key "nfkd")); repeat constructor.
      - destruct (co_bert o); repeat constructor.
      - destruct (co_lowercase o); repeat constructor. }
    unfold char_normal. assert (S : NormalizersSpec.usable (NSequence (char_steps o))) by (cbn [NormalizersSpec.usable]; induction U as [|n l A _ IH]; [exact Logic.I|split; assumption]).
    destruct (char_steps o) as [|n [|n' l]]; [exact S|inversion U; assumption|exact S].
  Qed.

  Lemma char_is g o m offered taken : tables_ok (pf_norm P) -> sane (pf_pre P) -> char_config g o m offered taken ->
    Forall (fun t => at_normalized t = false /\ at_lstrip t = false /\ at_rstrip t = false) offered ->
    word_tokenizer (runtime P g) (bpe_vocabulary m) (pf_norm P) (char_normal o) (pf_pre P) (char_cut o) offered /\ tz_model (runtime P g) = bpe_model (pf_pop P) m (pf_draws P).
  Proof.
    intros HN HT [(ns & A0 & A1) A2 A3 A4 A5 A6 A7] HO. split.
    - split; [split; [exact HN|]; split; [apply char_usable|]; eapply char_normal_of; eauto|]. split; [split; [exact HT|]; split; [unfold char_cut; destruct (co_spaces_only o); exact Logic.I|]; cbn [runtime tz_pre_tokenizer]; rewrite A2; unfold char_cut; destruct (co_spaces_only o); reflexivity|].
      split; [exists (pf_build P), any_norm, taken; exact A7|exact HO].
    - cbn [runtime tz_model]. rewrite A3. reflexivity.
  Qed.

  (** *** The constructor *)
  Lemma char_model_given v ms o m : sound_vocab v -> char_model (Some v) (Some ms) o = Ok m ->
    built v ms None m /\ b_vocab m = v /\ b_suffix m = Some (co_suffix o) /\ b_ignore_merges m = false /\ b_dropout m <> DOutside /\ NoDup (map snd v) /\ model_ok (bpe_vocabulary m) /\ dense (bpe_vocabulary m).
  Proof.
    intros (D1 & D2 & LT) H. unfold char_model in H. destruct (bpe_build _ _ _ _ _ _ _ _ _) as [b| |] eqn:EB in H; try discriminate. cbn [boxed] in H. injection H as ->. pose proof (build_facts _ _ _ _ _ _ _ _ _ _ EB) as BF.
    assert (BT : built v ms None m) by (split; [exact D1|do 6 eexists; exact EB]).
    assert (F : b_suffix m = Some (co_suffix o) /\ b_ignore_merges m = false /\ b_dropout m <> DOutside).
    { unfold bpe_build in EB. destruct (co_dropout o); try discriminate; (destruct (build_merges _ _ _ _ _ _) as [mm| |]; cbn [bind] in EB; [|discriminate..]); injection EB as <-; repeat split; discriminate. }
    split; [exact BT|]. split; [exact (bf_vocab _ _ _ _ BF)|]. destruct F as (F1 & F2 & F3). split; [exact F1|]. split; [exact F2|]. split; [exact F3|]. split; [exact D2|]. split; [eapply bpe_model_ok; eauto|].
    intros t i Hi. cbn [bpe_vocabulary mv_token_to_id mv_size] in *. unfold b_id in Hi. rewrite (bf_vocab _ _ _ _ BF) in *. apply (aget_In str_eqb str_eqb_eq) in Hi. exact (LT _ _ Hi).
  Qed.

  Lemma set_normalizer o g g' ns m cs : char_normalizers o = Ok ns -> told_config P (MBpe m) g cs -> byte_level_normalizer P ns g = Ok g' ->
    exists av, g' = mkConfig (char_setting ns) None (MBpe m) None None av None None /\ added_history (pf_build P) (bpe_vocabulary m) any_norm av (map special_text cs) (map special_text cs).
  Proof.
    intros EN [(av & ->) TH TK TC] H. cbn [set_added g_added] in TH.
    assert (X : forall n, (let '(g', ok) := with_normalizer P (set_added (tokenizer_new (MBpe m)) av) (Some n) in if ok then Ok g' else Err tt) = Ok g' ->
                exists av', g' = mkConfig (Some n) None (MBpe m) None None av' None None /\ added_history (pf_build P) (bpe_vocabulary m) any_norm av' (map special_text cs) (map special_text cs)).
    { intros n Y. unfold with_normalizer in Y. destruct (av_refresh_normalized (pf_build P) _ _) as [av' ok] eqn:ER in Y. destruct ok; [|discriminate]. injection Y as <-. exists av'. split; [reflexivity|].
      eapply ah_renormalize; [|intros f _; exact Logic.I|exact ER]. exact (history_any _ _ _ _ _ _ TH). }
    unfold byte_level_normalizer in H. destruct ns as [|n [|n' ns]]; [|exact (X n H)|exact (X (CnSequence (n :: n' :: ns)) H)].
    injection H as <-. exists av. split; [reflexivity|]. exact (history_any _ _ _ _ _ _ TH).
  Qed.

  Lemma char_given v ms o g : sound_vocab v -> char_new P (Some v) (Some ms) o = Ok g ->
    exists m cs, char_model (Some v) (Some ms) o = Ok m /\ incl cs [str_of (co_unk o)] /\ (In (str_of (co_unk o)) (map fst v) -> In (str_of (co_unk o)) cs) /\
      char_config g o m (map special_text cs) (map special_text cs).
  Proof.
    intros SV H. unfold char_new in H. apply bind_ok in H. destruct H as (m & EM & H). apply bind_ok in H. destruct H as (g1 & H1 & H). apply bind_ok in H. destruct H as (ns & EN & H). apply bind_ok in H. destruct H as (g2 & H2 & H).
    injection H as <-. destruct (char_model_given v ms o m SV EM) as (BT & EV & _ & _ & _ & _ & MO & DN).
    destruct (ImplBertProofs.told_all P (MBpe m) MO DN _ _ _ _ (told_new P _) H1) as (cs & T & A & B). cbn [app] in T. destruct (set_normalizer o g1 g2 ns m cs EN T H2) as (av & -> & AH).
    exists m, cs. split; [exact EM|]. split; [exact B|]. split.
    - intros I. apply A; [left; reflexivity|]. change (mv_token_to_id (model_vocabulary (MBpe m)) (str_of (co_unk o))) with (aget str_eqb (str_of (co_unk o)) (b_vocab m)). rewrite EV.
      apply in_map_iff in I. destruct I as ([c i] & EQ & I). cbn [fst] in EQ. subst c. rewrite (In_aget str_eqb str_eqb_eq _ _ _ (proj1 SV) I). discriminate.
    - constructor; try reflexivity; [exists ns; split; [exact EN|reflexivity]|split; reflexivity|exact AH].
  Qed.

  Lemma forms_known o : (exists ns, char_normalizers o = Ok ns) <-> named_form (co_unicode o).
  Proof.
    unfold char_normalizers, named_form, unicode_normalizer. destruct (co_unicode o) as [[|x l]|]; [split; [auto|eauto]| |split; [auto|eauto]]. set (n := x :: l).
    assert (NE : n <> []) by discriminate. clearbody n. clear x l.
    destruct (str_eqb n (key "nfc")) eqn:E1; [apply str_eqb_eq in E1; split; [auto|eauto]|]. destruct (str_eqb n (key "nfd")) eqn:E2; [apply str_eqb_eq in E2; split; [auto|eauto]|].
    destruct (str_eqb n (key "nfkc")) eqn:E3; [apply str_eqb_eq in E3; split; [auto|eauto]|]. destruct (str_eqb n (key "nfkd")) eqn:E4; [apply str_eqb_eq in E4; split; [auto 6|eauto]|].
    split; [intros (ns & H); discriminate|]. intros [H|[H|[H|[H|H]]]]; [congruence|rewrite H in E1; discriminate|rewrite H in E2; discriminate|rewrite H in E3; discriminate|rewrite H in E4; discriminate].
  Qed.

  Lemma char_accepts v ms o : sound_vocab v -> (forall l, NoDup (map fst l) -> pf_build P l = true) ->
    co_dropout o <> DOutside -> acceptable v None ms -> named_form (co_unicode o) -> exists g, char_new P (Some v) (Some ms) o = Ok g.
  Proof.
    intros SV HB DO AC NF. destruct (proj2 (build_accepts v ms (co_dropout o) (Some (str_of (co_unk o))) None (Some (co_suffix o)) false false false) (conj DO AC)) as (m & EM).
    assert (EM' : char_model (Some v) (Some ms) o = Ok m) by (unfold char_model; rewrite EM; reflexivity). destruct (char_model_given v ms o m SV EM') as (_ & _ & _ & _ & _ & _ & MO & DN).
    unfold char_new. rewrite EM'. cbn [bind].
    destruct (told_total P (MBpe m) MO DN HB [str_of (co_unk o)] _ _ (told_new P _)) as (g1 & E1). rewrite E1. cbn [bind].
    destruct (ImplBertProofs.told_all P (MBpe m) MO DN _ _ _ _ (told_new P _) E1) as (cs & T & _). cbn [app] in T.
    destruct (proj2 (forms_known o) NF) as (ns & EN). rewrite EN. cbn [bind].
    assert (X : forall n, exists g', (let '(g', ok) := with_normalizer P g1 (Some n) in if ok then Ok g' else @Err unit _ tt) = Ok g').
    { intros n. destruct (normal_total P (MBpe m) MO DN HB g1 cs n T) as (g' & ->). eauto. }
    unfold byte_level_normalizer. destruct ns as [|n [|n' ns]]; [cbn [bind]; eauto| |].
    - destruct (X n) as (g' & ->). cbn [bind]. eauto.
    - destruct (X (CnSequence (n :: n' :: ns))) as (g' & ->). cbn [bind]. eauto.
  Qed.
End config.

(** ** Training *)
Section training.
  Context {W : Type} (P : platform W).
  Context (by_count : list (char * N) -> list (char * N)) (pop : list tmerge -> option (tmerge * list tmerge)).
  Context (HC : count_sort by_count) (HQ : train_heap pop).

  Definition scratch (o : char_options) (ns : list norm_config) (m : bpe) : config W :=
    mkConfig (char_setting ns) (Some (if co_spaces_only o then CpWhitespaceSplit else CpBert)) (MBpe m) None (Some (CdBpe (co_suffix o))) av_new None None.
  Lemma new_scratch o g : char_new P None None o = Ok g ->
    exists ns m, char_normalizers o = Ok ns /\ char_model None None o = Ok m /\ b_vocab m = [] /\ b_dropout m <> DOutside /\ b_ignore_merges m = false /\ g = scratch o ns m.
  Proof.
    intros H. unfold char_new in H. apply bind_ok in H. destruct H as (m & EM & H).
    assert (FM : exists d mm, d <> DOutside /\ m = mkBpe [] (reverse_vocab []) mm d (Some (str_of (co_unk o))) None (Some (co_suffix o)) false false false).
    { unfold char_model, bpe_build in EM. destruct (co_dropout o); cbn [build_merges bind boxed] in EM; try discriminate; injection EM as <-; do 2 eexists; (split; [|reflexivity]); discriminate. }
    destruct FM as (d & mm & ND & FM). cbn [tell_all] in H. unfold tell_special in H. rewrite FM in H. cbn [tokenizer_new g_model g_added model_vocabulary] in H.
    change (tk_token_to_id _ av_new (str_of (co_unk o))) with (@None N) in H. cbn [bind] in H. rewrite <- FM in H.
    apply bind_ok in H. destruct H as (ns & EN & H). apply bind_ok in H. destruct H as (g2 & H2 & H). exists ns, m. split; [exact EN|]. split; [exact EM|]. rewrite FM at 1 2 3. split; [reflexivity|]. split; [exact ND|]. split; [reflexivity|].
    assert (E2 : g2 = mkConfig (char_setting ns) None (MBpe m) None None av_new None None).
    { unfold byte_level_normalizer in H2. destruct ns as [|n [|n' ns]]; cbn in H2; injection H2 as <-; reflexivity. }
    subst g2. injection H as <-. reflexivity.
  Qed.

  Lemma char_training_words o ns m s : char_normalizers o = Ok ns -> tables_ok (pf_norm P) -> sane (pf_pre P) -> text s ->
    exists ws, training_words (runtime P (scratch o ns m)) s = Ok ws /\ words_of (pf_pre P) (char_cut o) (normal_text (pf_norm P) (char_normal o) s) ws.
  Proof.
    intros EN HN HT TX. set (mv := bpe_vocabulary bpe_default). set (nz := char_normal o). set (p := char_cut o).
    assert (MO : model_ok mv).
    { apply (bpe_model_ok [] [] None); [|constructor]. split; [constructor|]. exists DNone, None, None, false, false, false. reflexivity. }
    assert (DN : AddedSpec.dense mv) by (intros t i H; discriminate H).
    assert (UP : PreTokenizersSpec.usable p) by (unfold p, char_cut; destruct (co_spaces_only o); exact Logic.I).
    destruct (word_extract (pf_space P) (pf_word P) (pf_build P) mv av_new [] [] (pf_norm P) nz s HN (char_usable o) MO DN (ah_new _ _ _) eq_refl) as (p1 & E1 & I1 & M1); [intros i t H; discriminate H|exact TX|constructor|].
    assert (SO1 : Forall section_ok (pt_splits p1)).
    { destruct (normal_text (pf_norm P) nz s) as [|c x]; [rewrite M1; constructor|]. destruct M1 as (z & -> & _ & _ & LZ). constructor; [|constructor]. intros _. exact LZ. }
    destruct (C65_pieces (pf_pre P) p s p1 HT UP I1 SO1) as (p2 & gs & E2 & G & F & _).
    destruct (splits_texts (pt_original p2) (pt_splits p2) 0) as (r & ER & EW).
    exists (map (fun x => fst (fst x)) r). split.
    - unfold training_words, do_pre_tokenize. rewrite (char_normal_of P (scratch o ns m) o ns EN eq_refl). fold nz.
      assert (EP : tz_pre_tokenizer (runtime P (scratch o ns m)) = Some (pre_tokenize (pf_pre P) p)) by (unfold p, char_cut; cbn [runtime scratch tz_pre_tokenizer g_pre option_map]; destruct (co_spaces_only o); reflexivity).
      rewrite EP. cbn [runtime scratch tz_space tz_word tz_added g_added]. rewrite E1. cbn [bind]. rewrite E2. cbn [bind]. unfold get_splits. rewrite ER. reflexivity.
    - rewrite EW. destruct (normal_text (pf_norm P) nz s) as [|c x] eqn:ENT.
      + rewrite M1 in F. inversion F; subst gs. cbn [concat] in G. rewrite G. reflexivity.
      + destruct M1 as (z & EZ & TZ & NZ & _). rewrite EZ in F. inversion F as [|? g ? ? PG F']; subst. inversion F'; subst. cbn [concat] in G. rewrite app_nil_r in G.
        unfold piece_group in PG. rewrite TZ, NZ in PG. destruct PG as [PG1 PG2]. rewrite G. exact PG2.
  Qed.

  Lemma trained_char o ns m0 vs mf limit initial sf special red g' :
    char_normalizers o = Ok ns -> b_dropout m0 <> DOutside -> b_ignore_merges m0 = false -> sf <> [] ->
    tables_ok (pf_norm P) -> sane (pf_pre P) -> Forall text (leaves red) ->
    (forall wc, counted (training_words (runtime P (scratch o ns m0))) (leaves red) wc -> small_corpus wc) ->
    config_train P by_count pop (TBpe (char_trainer vs mf limit initial sf special)) special red (scratch o ns m0) = Ok g' ->
    exists m merges wc al, counted (training_words (runtime P (scratch o ns m0))) (leaves red) wc /\
      char_config P g' o m special special /\ char_bpe (b_vocab m) merges sf m /\
      (forall t, In t special -> In (at_content t) (map fst (b_vocab m))) /\
      kept_alphabet (char_trainer vs mf limit initial sf special) wc al /\
      (forall w n, In (w, n) wc -> w <> [] -> (forall c, In c w -> In c al) -> in_alphabet (b_vocab m) sf w).
  Proof.
    intros EN DO IG NS HN HT TX SC TR.
    assert (NP : forall s, In s (leaves red) -> training_words (runtime P (scratch o ns m0)) s <> Panic).
    { intros s IS. rewrite Forall_forall in TX. destruct (char_training_words o ns m0 s EN HN HT (TX s IS)) as (ws & -> & _). discriminate. }
    destruct (trained_model P by_count pop _ _ _ _ _ NP TR) as (wc & C & L). cbn [mt_learn any_teacher scratch g_model] in L. apply bind_ok in L. destruct L as ([m sp] & L & X). injection X as X.
    specialize (SC wc C). destruct (trained_vocab_ok _ _ _ _ _ _ _ HC HQ SC DO L) as [MO DN].
    destruct (run_result _ _ _ _ _ _ _ HC HQ SC L) as (al & st & wtu & st' & PP & E & V & EB).
    destruct (loop_tokens pop _ wc al st wtu _ st' HQ PP E) as (_ & _ & rest & ER & _). pose proof (p_alphabet _ _ _ _ _ PP) as KA. pose proof (p_first _ _ _ _ _ PP) as FT. pose proof (p_spelled _ _ _ _ _ PP) as SP.
    set (tr := char_trainer vs mf limit initial sf special) in *.
    destruct (C37_rebuild by_count pop tr wc m0 HC HQ SC DO) as (m2 & _ & _ & merges & E2 & _ & _ & D1 & D2 & _ & B). rewrite L in E2. injection E2 as <- _.
    assert (VO : vocabulary m (v_words (ts_voc st'))) by (rewrite EB; apply result_vocabulary; apply V).
    assert (PB : b_prefix m = None /\ b_suffix m = Some sf /\ b_ignore_merges m = false) by (rewrite EB; repeat split; exact IG). destruct PB as (PB & SB & IB).
    assert (IN : forall t, In t (v_words (ts_voc st)) -> In t (map fst (b_vocab m))).
    { intros t I. assert (I' : In t (v_words (ts_voc st'))) by (rewrite ER; apply in_or_app; left; exact I). apply In_nth_error in I'. destruct I' as (k & Hk).
      apply in_map_iff. exists (t, N.of_nat k). split; [reflexivity|]. apply VO. rewrite Nat2N.id. exact Hk. }
    destruct FT as (extra & EF & _).
    exists m, merges, wc, al. split; [exact C|]. split; [|split; [|split; [|split; [exact KA|]]]].
    - destruct (trained_runtime P by_count pop _ _ _ _ _ TR) as (y & TY & EG). unfold TokenizerTrainModel.train in TY. cbn [te_tokenizer te_model] in TY. destruct (reduce _ _) as [wc'| |] in TY; try discriminate. unfold learn_and_add in TY. cbn [te_tokenizer te_model] in TY.
      destruct (mt_learn _ wc' _) as [m'| |]; try discriminate. cbn [with_model tz_added runtime mt_special any_teacher scratch g_added] in TY.
      destruct (add_tokens (pf_build P) (model_vocabulary m') _ special av_new) as [av [n|]] eqn:EA; [|discriminate]. injection TY as <-.
      assert (EM' : m' = MBpe m) by (rewrite X, EG; reflexivity). subst m'. rewrite EG. constructor; try reflexivity; [exists ns; split; [exact EN|reflexivity]|split; reflexivity|].
      cbn [trained_config g_added te_tokenizer with_added tz_added]. eapply (ah_add _ _ _ _ [] []); [apply ah_new|intros f _; exact Logic.I|exact EA].
    - split; [split; [exact D1|rewrite PB in B; do 6 eexists; exact B]|]. split; [exact SB|]. split; [exact IB|]. split; [exact NS|]. split; [exact D2|exact DN].
    - intros t IT. apply IN. rewrite EF. apply BpeTrainProofs.distinct_in. apply in_or_app. left. apply (in_map at_content). exact IT.
    - intros w n IW NW AW. split; [exact NW|].
      assert (AC : forall c, In c al -> In [c] (v_words (ts_voc st))).
      { intros c Ic. rewrite EF. apply BpeTrainProofs.distinct_in. apply in_or_app. right. apply in_or_app. left. apply (in_map (fun c => [c])). exact Ic. }
      assert (SPW : exists sw, BpeTrainSpec.spelled tr (v_words (ts_voc st)) true w sw).
      { clear -SP IW. induction SP as [|wn sw wc ws H _ IH]; [destruct IW|]. destruct IW as [->|IW]; [exists sw; exact H|exact (IH IW)]. }
      destruct SPW as (sw & SPW).
      assert (G : forall first s ids, BpeTrainSpec.spelled tr (v_words (ts_voc st)) first s ids -> (forall c, In c s -> In c al) ->
                  forall p c q, s = p ++ c :: q -> In (affixed None (Some sf) (if first then is_nil p else false) (is_nil q) c) (v_words (ts_voc st))).
      { clear SPW. intros first s ids SPW. induction SPW as [first|first c s i ids I1 N1 S1 IH|first c s ids I1 S1 IH]; intros A p d q EQ.
        - destruct p; discriminate.
        - destruct p as [|c' p]; injection EQ as -> EQ.
          + subst s. apply nth_error_In in N1. destruct first; exact N1.
          + specialize (IH (fun x Hx => A x (or_intror Hx)) p d q EQ). cbn [is_nil]. destruct first; exact IH.
        - exfalso. apply I1. apply AC. apply A. left. reflexivity. }
      intros p c q EQ. specialize (G true w sw SPW AW p c q EQ). apply IN. unfold affixed in G. destruct p as [|d p]; cbn [is_nil] in G; destruct q; cbn [app] in *; exact G.
  Qed.
End training.
