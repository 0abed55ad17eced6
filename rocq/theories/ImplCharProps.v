(** C98: the ready-made BPE tokenizer with an end of word suffix of the Python package. *)
From Coq Require Import String.
From Verif Require Import Base ListFacts StrBytes Utf8 AMap EncodingModel EncodingSpec NormModel BpeWordModel BpeWordSpec BpeModel BpeSpec BpeProofs BpeProps BpeTrainModel BpeTrainSpec BpeTrainProps TrainersModel
  NormalizersModel NormalizersSpec DecodersModel DecodersSpec AddedModel AddedSpec AddedProofs AddedProofs2 AddedProps
  PreTokModel PreTokenizersModel PreTokenizersSpec PreTokenizersProps TokenizerModel TokenizerSpec TokenizerProofs2 EndToEndProofs RoundTripModel RoundTripSpec RoundTripProofs SpmTripSpec SpmTripProofs
  WordTripModel WordTripSpec WordTripProofs WordTripProps CharTripModel CharTripSpec CharTripProofs CharTripProps
  ModelFilesModel ComponentFilesModel TokenizerFilesModel TokenizerFilesSpec TokenizerTrainModel TokenizerTrainSpec TokenizerTrainProofs TokenizerTrainProps TrainSaveModel TrainSaveProps
  PySettingsModel ImplModel ImplSpec ImplProofs ImplProps ImplBertModel ImplBertSpec ImplBertProofs ImplBertProps ImplCharModel ImplCharSpec ImplCharProofs.
From Verif Require ModelFilesProps ComponentFilesProps NormalizersProps.

Section char.
  Context {W : Type} (P : platform W).

  Lemma char_bpe_given v ms o m : sound_vocab v -> co_suffix o <> [] -> char_model (Some v) (Some ms) o = Ok m -> char_bpe v ms (co_suffix o) m.
  Proof.
    intros SV NE EM. destruct (char_model_given v ms o m SV EM) as (BT & _ & SF & IG & _ & D2 & _ & DN). split; [exact BT|]. split; [exact SF|]. split; [exact IG|]. split; [exact NE|]. split; assumption.
  Qed.

  Lemma bert_mode g o m vocab merges offered taken s ot add skip : usual P -> char_config P g o m offered taken -> char_bpe vocab merges (co_suffix o) m -> co_spaces_only o = false -> marked (pf_pre P) (co_suffix o) ->
    Forall (set_apart P (co_suffix o)) offered -> text s -> none_in offered s ->
    (forall ws, words_of (pf_pre P) PtBert (normal_text (pf_norm P) (char_normal o) s) ws -> Forall (in_alphabet vocab (co_suffix o)) ws) ->
    exists e ws, encode (runtime P g) ot (Single (Raw s)) add = Ok e /\ words_of (pf_pre P) PtBert (normal_text (pf_norm P) (char_normal o) s) ws /\
      decode_ids P g skip (ids e) = (if is_nil ws then Panic else Ok (join_spaces ws)) /\
      (ws <> [] -> normal_text (pf_norm P) (char_normal o) (join_spaces ws) = join_spaces ws -> none_in offered (join_spaces ws) ->
       exists e', encode (runtime P g) ot (Single (Raw (join_spaces ws))) add = Ok e' /\ ids e' = ids e).
  Proof.
    intros (HN & HT & W32 & HP) C CB SM MK HS TX NI AL.
    assert (HO : Forall (fun t => at_normalized t = false /\ at_lstrip t = false /\ at_rstrip t = false) offered) by (eapply Forall_impl; [|exact HS]; intros t (A & B & D & _); auto).
    destruct (char_is P g o m offered taken HN HT C HO) as [WT TM]. unfold char_cut in WT. rewrite SM in WT. pose proof C as [_ _ A3 A4 A5 [A6 A7] _].
    assert (P0 : tz_post (runtime P g) = None) by (cbn [runtime tz_post]; rewrite A4; reflexivity).
    assert (DE : forall sk l, decode_ids P g sk l = AddedModel.decode (bpe_vocabulary m) (tz_added (runtime P g)) (Some (DecodersModel.decode_tokens (DBpe (co_suffix o)))) sk l).
    { intros sk l. unfold decode_ids. rewrite A3, A5. reflexivity. }
    assert (OK : forall sk, exists e ws, encode (runtime P g) ot (Single (Raw s)) add = Ok e /\ words_of (pf_pre P) PtBert (normal_text (pf_norm P) (char_normal o) s) ws /\
      decode_ids P g sk (ids e) = if is_nil ws then Panic else Ok (join_spaces ws)).
    { intros sk. destruct (char_decoded (runtime P g) (pf_pop P) m (pf_draws P) vocab merges (co_suffix o) (pf_norm P) (char_normal o) (pf_pre P) PtBert offered s ot add sk WT HP TM CB TX NI) as (e & ws & E & WO & D); try assumption.
      - intros ws WO. pose proof (bert_words _ _ _ WO) as BW. specialize (AL ws WO). apply Forall_forall. intros w IW. rewrite Forall_forall in BW, AL. split; [auto|]. split; [eapply marked_once; eauto|].
        intros tk IT ST _. rewrite Forall_forall in HS. destruct (HS tk IT) as (_ & _ & _ & X). destruct (X ST) as [X1 X2]. split; [exact X1|]. eapply apart_absent; eauto.
      - exists e, ws. split; [exact E|]. split; [exact WO|]. rewrite DE. exact D. }
    destruct (OK skip) as (e & ws & E & WO & D). exists e, ws. split; [exact E|]. split; [exact WO|]. split; [exact D|]. intros NE NX NI'.
    destruct (C90_bert_again (runtime P g) (pf_pop P) m (pf_draws P) vocab merges (co_suffix o) (pf_norm P) (char_normal o) (pf_pre P) offered s ot add WT HP TM CB MK W32 TX NI) as (e1 & out & E1 & D1 & AG); try assumption.
    { intros ws' WO'. split; [|exact (AL ws' WO')]. destruct (punctuation_decided (pf_pre P)) as (pn & HD). apply (words_read (pf_pre P) pn HD) in WO. apply (words_read (pf_pre P) pn HD) in WO'. congruence. }
    rewrite E in E1. injection E1 as <-. destruct (OK false) as (e2 & ws2 & E2 & WO2 & D2). rewrite E in E2. injection E2 as <-.
    assert (ws2 = ws) as -> by (destruct (punctuation_decided (pf_pre P)) as (pn & HD); apply (words_read (pf_pre P) pn HD) in WO; apply (words_read (pf_pre P) pn HD) in WO2; congruence).
    rewrite DE, D1 in D2. destruct ws as [|w ws]; [congruence|]. cbn [is_nil] in D2. injection D2 as ->. apply AG; assumption.
  Qed.

  Lemma spaces_mode g o m vocab merges offered taken s ot add skip c y : usual P -> char_config P g o m offered taken -> char_bpe vocab merges (co_suffix o) m -> co_spaces_only o = true ->
    co_suffix o = c :: y -> ~ In c y -> ~ occurs (co_suffix o) (normal_text (pf_norm P) (char_normal o) s) ->
    Forall (set_aside (co_suffix o) (normal_text (pf_norm P) (char_normal o) s)) offered -> text s -> none_in offered s ->
    (forall ws, words_of (pf_pre P) PtWhitespaceSplit (normal_text (pf_norm P) (char_normal o) s) ws -> Forall (in_alphabet vocab (co_suffix o)) ws) ->
    exists e ws, encode (runtime P g) ot (Single (Raw s)) add = Ok e /\ words_of (pf_pre P) PtWhitespaceSplit (normal_text (pf_norm P) (char_normal o) s) ws /\
      decode_ids P g skip (ids e) = (if is_nil ws then Panic else Ok (join_spaces ws)).
  Proof.
    intros (HN & HT & W32 & HP) C CB SM ES NC NO HS TX NI AL.
    assert (HO : Forall (fun t => at_normalized t = false /\ at_lstrip t = false /\ at_rstrip t = false) offered) by (eapply Forall_impl; [|exact HS]; intros t (A & B & D & _); auto).
    destruct (char_is P g o m offered taken HN HT C HO) as [WT TM]. unfold char_cut in WT. rewrite SM in WT. pose proof C as [_ _ A3 A4 A5 [A6 A7] _].
    destruct (char_decoded (runtime P g) (pf_pop P) m (pf_draws P) vocab merges (co_suffix o) (pf_norm P) (char_normal o) (pf_pre P) PtWhitespaceSplit offered s ot add skip WT HP TM CB TX NI) as (e & ws & E & WO & D); try assumption.
    - intros ws WO. pose proof (spaces_inside _ _ _ WO) as SI. specialize (AL ws WO). apply Forall_forall. intros w IW. rewrite Forall_forall in SI, AL. destruct (SI w IW) as (_ & (a & b & OW) & _). split; [auto|]. split.
      + rewrite ES. apply unbordered_once; [exact NC|]. rewrite <- ES. intros (a' & b' & O'). apply NO. exists (a ++ a'), (b' ++ b). rewrite OW, O', <- !app_assoc. reflexivity.
      + intros tk IT ST _. rewrite Forall_forall in HS. destruct (HS tk IT) as (_ & _ & _ & X). destruct (X ST) as [X1 X2]. split; [exact X1|]. intros (a' & b' & O'). apply X2. exists (a ++ a'), (b' ++ b). rewrite OW, O', <- !app_assoc. reflexivity.
    - cbn [runtime tz_post]. rewrite A4. reflexivity.
    - exists e, ws. split; [exact E|]. split; [exact WO|]. unfold decode_ids. rewrite A3, A5. exact D.
  Qed.

  (** A vocabulary and merges are accepted exactly if the merges can be made in the
      vocabulary, the dropout is between 0 and 1 and the Unicode form has a known name,
      when the builder of the automaton takes all lists of distinct patterns. *)
  Theorem C98_accepts vocab merges o : sound_vocab vocab -> (forall l, NoDup (map fst l) -> pf_build P l = true) ->
    (exists g, char_new P (Some vocab) (Some merges) o = Ok g) <-> co_dropout o <> DOutside /\ acceptable vocab None merges /\ named_form (co_unicode o).
  Proof.
    intros SV HB. split; [|intros (H1 & H2 & H3); apply char_accepts; assumption]. intros (g & H). unfold char_new in H. apply bind_ok in H. destruct H as (m & EM & H). apply bind_ok in H. destruct H as (g1 & H1 & H). apply bind_ok in H. destruct H as (ns & EN & H).
    unfold char_model in EM. destruct (bpe_build _ _ _ _ _ _ _ _ _) as [b| |] eqn:EB in EM; try discriminate. destruct (proj1 (build_accepts _ _ _ _ _ _ _ _ _) (ex_intro _ b EB)) as [X Y]. split; [exact X|]. split; [exact Y|].
    apply forms_known. eauto.
  Qed.

  (** A text whose words are written in the alphabet of the vocabulary is decoded to its
      words with single spaces between them, with or without the special tokens, and that
      text is encoded to the same ids if the normalizer leaves it as it is. *)
  Theorem C98_words vocab merges o g ts g' s ot add skip : sound_vocab vocab -> char_new P (Some vocab) (Some merges) o = Ok g -> extended P g ts g' ->
    usual P -> co_spaces_only o = false -> marked (pf_pre P) (co_suffix o) -> Forall (set_apart P (co_suffix o)) (special_text (str_of (co_unk o)) :: ts) ->
    text s -> none_in (special_text (str_of (co_unk o)) :: ts) s ->
    (forall ws, words_of (pf_pre P) PtBert (normal_text (pf_norm P) (char_normal o) s) ws -> Forall (in_alphabet vocab (co_suffix o)) ws) ->
    exists e ws, encode (runtime P g') ot (Single (Raw s)) add = Ok e /\ words_of (pf_pre P) PtBert (normal_text (pf_norm P) (char_normal o) s) ws /\
      decode_ids P g' skip (ids e) = (if is_nil ws then Panic else Ok (join_spaces ws)) /\
      (ws <> [] -> normal_text (pf_norm P) (char_normal o) (join_spaces ws) = join_spaces ws -> none_in (special_text (str_of (co_unk o)) :: ts) (join_spaces ws) ->
       exists e', encode (runtime P g') ot (Single (Raw (join_spaces ws))) add = Ok e' /\ ids e' = ids e).
  Proof.
    intros SV H X US SM MK HS TX NI AL. destruct (char_given P _ _ _ _ SV H) as (m & cs & EM & IC & _ & C). pose proof (char_extended P _ _ _ _ _ _ _ C X) as C'.
    assert (NE : co_suffix o <> []) by (destruct MK as (c & d & y & -> & _); discriminate).
    assert (IL : incl (map special_text cs ++ ts) (special_text (str_of (co_unk o)) :: ts)).
    { intros t IT. apply in_app_or in IT. destruct IT as [IT|IT]; [left|right; exact IT]. apply in_map_iff in IT. destruct IT as (x & <- & IX). apply IC in IX. destruct IX as [<-|[]]. reflexivity. }
    destruct (bert_mode g' o m vocab merges _ _ s ot add skip US C' (char_bpe_given _ _ _ _ SV NE EM) SM MK) as (e & ws & E & WO & D & AG); try assumption.
    - rewrite Forall_forall in *. auto.
    - eapply sub_none; eassumption.
    - exists e, ws. split; [exact E|]. split; [exact WO|]. split; [exact D|]. intros N1 N2 N3. apply AG; [exact N1|exact N2|]. eapply sub_none; eassumption.
  Qed.

  (** The same when texts are split at white space only: neither the suffix nor a special
      token may then be in the text. *)
  Theorem C98_spaces vocab merges o g ts g' s ot add skip c y : sound_vocab vocab -> char_new P (Some vocab) (Some merges) o = Ok g -> extended P g ts g' ->
    usual P -> co_spaces_only o = true -> co_suffix o = c :: y -> ~ In c y -> ~ occurs (co_suffix o) (normal_text (pf_norm P) (char_normal o) s) ->
    Forall (set_aside (co_suffix o) (normal_text (pf_norm P) (char_normal o) s)) (special_text (str_of (co_unk o)) :: ts) ->
    text s -> none_in (special_text (str_of (co_unk o)) :: ts) s ->
    (forall ws, words_of (pf_pre P) PtWhitespaceSplit (normal_text (pf_norm P) (char_normal o) s) ws -> Forall (in_alphabet vocab (co_suffix o)) ws) ->
    exists e ws, encode (runtime P g') ot (Single (Raw s)) add = Ok e /\ words_of (pf_pre P) PtWhitespaceSplit (normal_text (pf_norm P) (char_normal o) s) ws /\
      decode_ids P g' skip (ids e) = (if is_nil ws then Panic else Ok (join_spaces ws)).
  Proof.
    intros SV H X US SM ES NC NO HS TX NI AL. destruct (char_given P _ _ _ _ SV H) as (m & cs & EM & IC & _ & C). pose proof (char_extended P _ _ _ _ _ _ _ C X) as C'.
    assert (NE : co_suffix o <> []) by (rewrite ES; discriminate).
    assert (IL : incl (map special_text cs ++ ts) (special_text (str_of (co_unk o)) :: ts)).
    { intros t IT. apply in_app_or in IT. destruct IT as [IT|IT]; [left|right; exact IT]. apply in_map_iff in IT. destruct IT as (x & <- & IX). apply IC in IX. destruct IX as [<-|[]]. reflexivity. }
    apply (spaces_mode g' o m vocab merges _ _ s ot add skip c y US C' (char_bpe_given _ _ _ _ SV NE EM) SM ES NC NO); try assumption.
    - rewrite Forall_forall in *. auto.
    - eapply sub_none; eassumption.
  Qed.

  (** A vocabulary without merges, or merges without a vocabulary, are not used. *)
  Theorem C98_both_or_none vocab merges o : char_new P (Some vocab) None o = char_new P None None o /\ char_new P None (Some merges) o = char_new P None None o.
  Proof. split; reflexivity. Qed.

  (** Of an [AddedToken] given for the unknown token only the text is used. *)
  Theorem C98_flags_lost vocab merges o : char_new P vocab merges o =
    char_new P vocab merges (mkCharOptions (ArgText (str_of (co_unk o))) (co_suffix o) (co_dropout o) (co_lowercase o) (co_unicode o) (co_bert o) (co_spaces_only o)).
  Proof. reflexivity. Qed.

  (** No ids cannot be decoded, whatever was done to the tokenizer. *)
  Theorem C98_nothing_refuted vocab merges o g ts g' skip : char_new P vocab merges o = Ok g -> extended P g ts g' -> decode_ids P g' skip [] = Panic.
  Proof.
    intros H X. assert (E : g_decoder g = Some (CdBpe (co_suffix o))).
    { unfold char_new in H. apply bind_ok in H. destruct H as (m & _ & H). apply bind_ok in H. destruct H as (g1 & _ & H). apply bind_ok in H. destruct H as (ns & _ & H). apply bind_ok in H. destruct H as (g2 & _ & H). injection H as <-. reflexivity. }
    assert (E' : g_decoder g' = Some (CdBpe (co_suffix o))).
    { clear H. induction X as [|ts g1 more g2 n X IH A|ts g1 b X IH]; [exact E| |exact IH]. unfold tokenizer_add in A. destruct (add_tokens _ _ _ _ _) in A. injection A as <- _. exact IH. }
    unfold decode_ids. rewrite E'. reflexivity.
  Qed.

  Context (by_count : list (char * N) -> list (char * N)) (pop : list tmerge -> option (tmerge * list tmerge)).
  Context (HC : count_sort by_count) (HQ : train_heap pop).

  (** Trained from nothing on any texts, with the suffix of the constructor; then tokens
      are added: texts in the alphabet of the new vocabulary are decoded to their words,
      and so are the training texts whose characters are in the kept alphabet. *)
  Theorem C98_trained o g vocab_size min_frequency limit initial heap items heap' special texts g1 ts g' :
    char_new P None None o = Ok g -> collect true heap items = (heap', Ok special) ->
    char_train P by_count pop vocab_size min_frequency limit initial (Some (co_suffix o)) heap items texts g = Ok g1 -> extended P g1 ts g' ->
    Forall text (leaves texts) -> (forall wc, counted (training_words (runtime P g)) (leaves texts) wc -> small_corpus wc) ->
    usual P -> co_spaces_only o = false -> marked (pf_pre P) (co_suffix o) -> Forall (set_apart P (co_suffix o)) (special ++ ts) ->
    exists m wc al, g_model g' = MBpe m /\ counted (training_words (runtime P g)) (leaves texts) wc /\
      kept_alphabet (mkTrainer min_frequency vocab_size (map at_content special) (Some limit) initial None (Some (co_suffix o)) None) wc al /\
      (forall t, In t special -> In (at_content t) (map fst (b_vocab m))) /\
      forall s ot add skip, text s -> none_in (special ++ ts) s ->
        (forall ws, words_of (pf_pre P) PtBert (normal_text (pf_norm P) (char_normal o) s) ws ->
           Forall (in_alphabet (b_vocab m) (co_suffix o)) ws \/ In s (leaves texts) /\ Forall (fun w => forall c, In c w -> In c al) ws) ->
        exists e ws, encode (runtime P g') ot (Single (Raw s)) add = Ok e /\ words_of (pf_pre P) PtBert (normal_text (pf_norm P) (char_normal o) s) ws /\
          decode_ids P g' skip (ids e) = (if is_nil ws then Panic else Ok (join_spaces ws)) /\
          (ws <> [] -> normal_text (pf_norm P) (char_normal o) (join_spaces ws) = join_spaces ws -> none_in (special ++ ts) (join_spaces ws) ->
           exists e', encode (runtime P g') ot (Single (Raw (join_spaces ws))) add = Ok e' /\ ids e' = ids e).
  Proof.
    intros H CL TR X TX SC US SM MK HS. destruct (new_scratch P _ _ H) as (ns & m0 & EN & EM & _ & DO & IG & ->). unfold char_train in TR. rewrite CL in TR.
    assert (NE : co_suffix o <> []) by (destruct MK as (c & d & y & -> & _); discriminate). pose proof US as (HN & HT & _).
    destruct (trained_char P by_count pop HC HQ _ _ _ _ _ _ _ _ _ _ _ EN DO IG NE HN HT TX SC TR) as (m & merges & wc & al & CO & C & CB & KS & KA & SP).
    pose proof (char_extended P _ _ _ _ _ _ _ C X) as C'. exists m, wc, al. split; [apply C'|]. split; [exact CO|]. split; [exact KA|]. split; [exact KS|]. intros s ot add skip Hs NI AL.
    apply (bert_mode g' o m (b_vocab m) merges _ _ s ot add skip US C' CB SM MK HS Hs NI). intros ws WO. destruct (AL ws WO) as [A|[IS A]]; [exact A|]. pose proof (bert_words _ _ _ WO) as BW. apply Forall_forall. intros w IW. rewrite Forall_forall in A, BW.
    destruct (char_training_words P o ns m0 s EN HN HT Hs) as (ws' & TW & WO'). unfold char_cut in WO'. rewrite SM in WO'. destruct (punctuation_decided (pf_pre P)) as (pn & HP). apply (words_read (pf_pre P) pn HP) in WO. apply (words_read (pf_pre P) pn HP) in WO'. rewrite <- WO in WO'. subst ws'.
    assert (NZ : 0 < occurrences (training_words (runtime P (scratch o ns m0))) w (leaves texts)).
    { clear -IS TW IW. induction (leaves texts) as [|x l IH]; [destruct IS|]. unfold occurrences in *. cbn [map list_sum fold_right]. destruct IS as [->|IS]; [|specialize (IH IS); unfold list_sum in IH; lia].
      rewrite TW. apply (count_occ_In (list_eq_dec N.eq_dec)) in IW. lia. }
    apply (SP w (N.of_nat (occurrences (training_words (runtime P (scratch o ns m0))) w (leaves texts)))); [|apply (BW w IW)|exact (A w IW)]. apply CO. split; [reflexivity|lia].
  Qed.

  (** [None] for the suffix, which the signature of [train] allows, is an error. *)
  Theorem C98_no_suffix_refuted vocab_size min_frequency limit initial heap items texts (g : config W) heap' special : collect true heap items = (heap', Ok special) ->
    char_train P by_count pop vocab_size min_frequency limit initial None heap items texts g = Err tt.
  Proof. intros CL. unfold char_train. rewrite CL. reflexivity. Qed.
End char.

(** ** Examples and findings *)
Definition ch_full : list (str * N) := be_vocab ["<unk>"; "a"; "b"; "a</w>"; "b</w>"; ".</w>"; "ab</w>"]%string.
Definition ch_merges : list (str * str) := [(key "a", key "b</w>")].
Definition ch_new (l : list (str * N)) (o : char_options) : res unit (config Z) := char_new bl_platform (Some l) (Some ch_merges) o.
Definition ch_ids (g : config Z) (s : string) : res unit (list N) := let! e := boxed (encode (runtime bl_platform g) OChar (Single (Raw (key s))) true) in Ok (ids e).
Definition ch_trip (g : config Z) (skip : bool) (s : string) : res unit str := let! l := ch_ids g s in decode_ids bl_platform g skip l.
Definition ch_texts : reduction str := RNode (RLeaf (key "ab ab")) (RLeaf (key "ab b")).
Definition ch_train (items : list item) (suffix : string) (g : config Z) : res unit (config Z) := char_train bl_platform sort_count pop_first 30 2 1000 [] (Some (key suffix)) [] items ch_texts g.
Definition ch_unk : list item := [ItStr (key "<unk>")].
Definition ch_scratch : config Z := match char_new bl_platform None None char_defaults with Ok g => g | _ => tokenizer_new (MBpe bpe_default) end.


Lemma ch_sound : sound_vocab ch_full.
Proof.
  split; [apply (nodup_check str_eqb); [apply str_eqb_eq|vm_compute; reflexivity]|]. split; [apply (nodup_check N.eqb); [apply N.eqb_eq|vm_compute; reflexivity]|].
  intros t i H. assert (G : forallb (fun x : str * N => N.ltb (snd x) (N.of_nat (List.length ch_full))) ch_full = true) by (vm_compute; reflexivity).
  rewrite forallb_forall in G. specialize (G _ H). cbn [snd] in G. lia.
Qed.
Lemma ch_usual : usual bl_platform.
Proof. split; [exact NormalizersProps.C68_tables_example|]. split; [exact toy_sane|]. split; [reflexivity|exact pop_min_ok]. Qed.
Lemma ch_marked : marked (pf_pre bl_platform) (key "</w>").
Proof. exists 60%N, 47%N, [119; 62]%N. split; [reflexivity|]. split; [discriminate|left; cbn; tauto]. Qed.
Lemma ch_apart : set_apart bl_platform (key "</w>") (special_text (key "<unk>")).
Proof.
  split; [reflexivity|]. split; [reflexivity|]. split; [reflexivity|]. intros _. split.
  - intros u E. apply (f_equal (@rev N)) in E. rewrite rev_app_distr in E. cbn in E. discriminate.
  - exists 60%N, 117%N, [110; 107; 62]%N. split; [reflexivity|left; cbn; tauto].
Qed.
Lemma ch_free (s : string) : ~ In 117%N (key s) -> none_in [special_text (key "<unk>")] (key s).
Proof.
  intros N. constructor; [|constructor]. right. intros (a & b & E). apply N. rewrite E. apply in_or_app. right. apply in_or_app. left. right. left. reflexivity.
Qed.

(** "ab a." comes back as "ab a .". *)
Example C98_words_example : sound_vocab ch_full /\ (forall l, NoDup (map fst l) -> pf_build bl_platform l = true) /\ acceptable ch_full None ch_merges /\
  usual bl_platform /\ marked (pf_pre bl_platform) (key "</w>") /\ set_apart bl_platform (key "</w>") (special_text (key "<unk>")) /\ text (key "ab a.") /\ none_in [special_text (key "<unk>")] (key "ab a.") /\
  (forall ws, words_of (pf_pre bl_platform) PtBert (normal_text (pf_norm bl_platform) (char_normal char_defaults) (key "ab a.")) ws -> Forall (in_alphabet ch_full (key "</w>")) ws) /\
  exists g, ch_new ch_full char_defaults = Ok g /\ ch_ids g "ab a." = Ok [6; 3; 5]%N /\ ch_trip g true "ab a." = Ok (key "ab a .").
Proof.
  split; [exact ch_sound|]. split; [exact bl_builds|]. split.
  { intros a b [H|[]]. injection H as <- <-. split; [cbn; tauto|]. split; [cbn; tauto|]. exists (key "ab</w>"). split; [|cbn; tauto]. exists [], (key "b</w>"). repeat split. }
  split; [exact ch_usual|]. split; [exact ch_marked|]. split; [exact ch_apart|]. split; [repeat constructor|]. split; [apply ch_free; cbn; intuition discriminate|]. split.
  - intros ws W. change (pf_pre bl_platform) with toy_tables in W. destruct (punctuation_decided toy_tables) as (pn & PD). apply (words_read toy_tables pn PD) in W.
    assert (P46 : pn 46%N = true) by (apply PD; left; cbn; tauto).
    assert (P97 : pn 97%N = false) by (destruct (pn 97%N) eqn:E; [apply PD in E; destruct E as [E|E]; [cbn in E; intuition discriminate|discriminate E]|reflexivity]).
    assert (P98 : pn 98%N = false) by (destruct (pn 98%N) eqn:E; [apply PD in E; destruct E as [E|E]; [cbn in E; intuition discriminate|discriminate E]|reflexivity]).
    change (normal_text (pf_norm bl_platform) (char_normal char_defaults) (key "ab a.")) with [97; 98; 32; 97; 46]%N in W. cbn [read] in W. rewrite P46, P97, P98 in W. cbn in W. subst ws.
    assert (AW : forall w, In w [[97; 98]; [97]; [46]]%N -> in_alphabet ch_full (key "</w>") w).
    { intros w Iw. split; [cbn in Iw; intuition (subst; discriminate)|]. intros p c q E. cbn in Iw. destruct Iw as [<-|[<-|[<-|[]]]]; destruct p as [|? [|? [|? p]]]; cbn in E; try discriminate; injection E; intros; subst; cbn; tauto. }
    repeat (apply Forall_cons; [apply AW; cbn; tauto|]). constructor.
  - eexists. split; [vm_compute; reflexivity|]. split; [vm_compute; reflexivity|]. vm_compute. reflexivity.
Qed.

(** Split at white space only: "ab a" comes back as it is. *)
Definition ch_spaces : char_options := mkCharOptions (ArgText (key "<unk>")) (key "</w>") DNone false None true true.
Example C98_spaces_example : co_suffix ch_spaces = 60%N :: [47; 119; 62]%N /\ ~ In 60%N [47; 119; 62]%N /\ ~ occurs (key "</w>") (normal_text (pf_norm bl_platform) (char_normal ch_spaces) (key "ab a")) /\
  set_aside (key "</w>") (normal_text (pf_norm bl_platform) (char_normal ch_spaces) (key "ab a")) (special_text (key "<unk>")) /\
  (forall ws, words_of (pf_pre bl_platform) PtWhitespaceSplit (normal_text (pf_norm bl_platform) (char_normal ch_spaces) (key "ab a")) ws -> Forall (in_alphabet ch_full (key "</w>")) ws) /\
  exists g, ch_new ch_full ch_spaces = Ok g /\ ch_ids g "ab a" = Ok [6; 3]%N /\ ch_trip g true "ab a" = Ok (key "ab a").
Proof.
  change (normal_text (pf_norm bl_platform) (char_normal ch_spaces) (key "ab a")) with [97; 98; 32; 97]%N.
  assert (O : forall u, In 60%N u -> ~ occurs u [97; 98; 32; 97]%N).
  { intros u I (a & b & E). assert (X : In 60%N [97; 98; 32; 97]%N) by (rewrite E; apply in_or_app; right; apply in_or_app; left; exact I). cbn in X. intuition discriminate. }
  split; [reflexivity|]. split; [cbn; intuition discriminate|]. split; [apply O; left; reflexivity|]. split; [|split].
  - split; [reflexivity|]. split; [reflexivity|]. split; [reflexivity|]. intros _. split; [exact (proj1 (proj2 (proj2 (proj2 ch_apart)) eq_refl))|]. apply O. left. reflexivity.
  - intros ws W. apply spaces_words in W. vm_compute in W. subst ws.
    assert (AW : forall w, In w [[97; 98]; [97]]%N -> in_alphabet ch_full (key "</w>") w).
    { intros w Iw. split; [cbn in Iw; intuition (subst; discriminate)|]. intros p c q E. cbn in Iw. destruct Iw as [<-|[<-|[]]]; destruct p as [|? [|? [|? p]]]; cbn in E; try discriminate; injection E; intros; subst; cbn; tauto. }
    repeat (apply Forall_cons; [apply AW; cbn; tauto|]). constructor.
  - eexists. split; [vm_compute; reflexivity|]. split; [vm_compute; reflexivity|]. vm_compute. reflexivity.
Qed.

Lemma ch_counted wc : counted (training_words (runtime bl_platform ch_scratch)) (leaves ch_texts) wc -> small_corpus wc.
Proof.
  intros C. unfold small_corpus. assert (X : forall w n, In (w, n) wc -> (w = key "ab" /\ n = 3%N) \/ (w = key "b" /\ n = 1%N)).
  { intros w n I. apply C in I. destruct I as [EN L].
    assert (E1 : training_words (runtime bl_platform ch_scratch) (key "ab ab") = Ok [key "ab"; key "ab"]) by (vm_compute; reflexivity).
    assert (E2 : training_words (runtime bl_platform ch_scratch) (key "ab b") = Ok [key "ab"; key "b"]) by (vm_compute; reflexivity).
    assert (NE : key "ab" <> key "b") by discriminate. change (leaves ch_texts) with [key "ab ab"; key "ab b"] in EN.
    destruct (two_texts _ _ _ _ _ w NE E1 E2) as [[H1 H2]|[H1 H2]]; [lia|left|right]; rewrite EN, H2; split; auto. }
  destruct C as [D _]. assert (L : incl wc [(key "ab", 3%N); (key "b", 1%N)]).
  { intros [w n] I. destruct (X w n I) as [[-> ->]|[-> ->]]; [left; reflexivity|right; left; reflexivity]. }
  assert (ND : NoDup wc) by (eapply NoDup_map_inv; exact D).
  destruct wc as [|a [|b [|c wc]]]; [cbn; lia| | |apply NoDup_incl_length in L; [cbn in L; lia|exact ND]].
  - destruct (L a (or_introl eq_refl)) as [<-|[<-|[]]]; vm_compute; reflexivity.
  - destruct (L a (or_introl eq_refl)) as [<-|[<-|[]]], (L b (or_intror (or_introl eq_refl))) as [<-|[<-|[]]]; vm_compute; reflexivity.
Qed.
(** Trained on "ab ab" and "ab b": the text "ab b" comes back. *)
Example C98_trained_example : char_new bl_platform None None char_defaults = Ok ch_scratch /\ collect true [] ch_unk = ([], Ok [special_text (key "<unk>")]) /\
  Forall text (leaves ch_texts) /\ (forall wc, counted (training_words (runtime bl_platform ch_scratch)) (leaves ch_texts) wc -> small_corpus wc) /\
  exists g1, ch_train ch_unk "</w>" ch_scratch = Ok g1 /\ ch_ids g1 "ab b" = Ok [4; 3]%N /\ ch_trip g1 true "ab b" = Ok (key "ab b").
Proof.
  split; [reflexivity|]. split; [reflexivity|]. split; [repeat constructor|]. split; [exact ch_counted|]. eexists. split; [vm_compute; reflexivity|]. split; [vm_compute; reflexivity|]. vm_compute. reflexivity.
Qed.

(** A text of unknown characters only is encoded to unknown tokens, which [decode] leaves
    out by default: it panics on them. *)
Theorem C98_unknown_refuted : exists g, ch_new ch_full char_defaults = Ok g /\ ch_ids g "z" = Ok [0]%N /\ ch_trip g true "z" = Panic /\ ch_trip g false "z" = Ok (key "<unk>").
Proof. eexists. split; [vm_compute; reflexivity|]. split; [vm_compute; reflexivity|]. split; [vm_compute; reflexivity|]. vm_compute. reflexivity. Qed.
(** A vocabulary without the unknown token is accepted, and then a text with an unknown
    character is not encoded; so too after training without it. *)
Theorem C98_unk_refuted : (exists g, ch_new (be_vocab ["a"; "b"; "a</w>"; "b</w>"; "ab</w>"]%string) char_defaults = Ok g /\ ch_ids g "a" = Ok [2]%N /\ ch_ids g "a z" = Err tt) /\
  exists g1, ch_train [] "</w>" ch_scratch = Ok g1 /\ ch_ids g1 "ab" = Ok [3]%N /\ ch_ids g1 "ab z" = Err tt.
Proof. split; (eexists; split; [vm_compute; reflexivity|]; split; [vm_compute; reflexivity|]; vm_compute; reflexivity). Qed.
(** Trained with another suffix than the constructor was given: the suffix is left in the
    decoded text, and no spaces come back. *)
Theorem C98_suffix_refuted : exists g1, ch_train ch_unk "@@" ch_scratch = Ok g1 /\ ch_trip g1 true "ab b" = Ok (key "ab@@b@@").
Proof. eexists. split; [vm_compute; reflexivity|]. vm_compute. reflexivity. Qed.
(** A tokenizer made with a vocabulary and then trained keeps the unknown token with its
    id of before, although the new model has it with another id.  Here the old id is now
    that of the word "ab", which is then shown as the unknown token, or left out. *)
Theorem C98_stale_refuted : exists g g1, ch_new (be_vocab ["a"; "b"; "a</w>"; "b</w>"; "<unk>"; "ab</w>"]%string) char_defaults = Ok g /\ ch_train ch_unk "</w>" g = Ok g1 /\
  match g_model g1 with MBpe m => b_id m (key "ab</w>") = Some 4%N /\ b_id m (key "<unk>") = Some 0%N | _ => False end /\
  ch_ids g1 "ab b" = Ok [4; 3]%N /\ ch_trip g1 false "ab b" = Ok (key "<unk>b") /\ ch_trip g1 true "ab b" = Ok (key "b").
Proof.
  eexists _, _. split; [vm_compute; reflexivity|]. split; [vm_compute; reflexivity|]. split; [vm_compute; split; reflexivity|]. split; [vm_compute; reflexivity|]. split; [vm_compute; reflexivity|]. vm_compute. reflexivity.
Qed.
