(** C97: the ready-made BERT tokenizer of the Python package. *)
From Coq Require Import String.
From Verif Require Import Base ListFacts StrBytes Utf8 AMap EncodingModel EncodingSpec NormModel BpeWordModel BpeModel BpeProps BpeTrainModel BpeTrainSpec BpeTrainProps TrainersModel WordPieceModel WordPieceSpec
  NormalizersModel NormalizersSpec ProcessorsModel ProcessorsSpec DecodersModel DecodersSpec AddedModel AddedSpec AddedProofs AddedProofs2 AddedProps
  PreTokModel PreTokenizersModel PreTokenizersSpec PreTokenizersProps TokenizerModel TokenizerSpec TokenizerProofs2 EndToEndProofs EndToEndProps RoundTripModel RoundTripSpec RoundTripProofs SpmTripSpec SpmTripProofs
  WordTripModel WordTripSpec WordTripProofs WordTripProps
  ModelFilesModel ComponentFilesModel TokenizerFilesModel TokenizerFilesSpec TokenizerTrainModel TokenizerTrainSpec TokenizerTrainProofs TokenizerTrainProps TrainSaveModel TrainSaveProps
  PySettingsModel ImplSpec ImplProofs ImplProps ImplBertModel ImplBertSpec ImplBertProofs.
From Verif Require ModelFilesProps ComponentFilesProps NormalizersProps.

Lemma sub_none l l' s : incl l l' -> none_in l' s -> none_in l s.
Proof. unfold none_in. rewrite !Forall_forall. auto. Qed.

Section bert.
  Context {W : Type} (P : platform W).

  (** A vocabulary is accepted exactly if it has the two markers, when the builder of
      the automaton takes all lists of distinct patterns. *)
  Theorem C97_accepts vocab o : sound_vocab vocab -> (forall l, NoDup (map fst l) -> pf_build P l = true) ->
    (exists g, bert_new P (Some vocab) o = Ok g) <-> In (str_of (wo_sep o)) (map fst vocab) /\ In (str_of (wo_cls o)) (map fst vocab).
  Proof.
    intros SV HB. split; [|intros [H1 H2]; apply accepts; assumption]. intros (g & H). destruct (given_config P _ _ _ SV H) as (i & j & cs & H1 & H2 & _).
    split; eapply in_map_iff; [exists (str_of (wo_sep o), i)|exists (str_of (wo_cls o), j)]; auto.
  Qed.

  (** Encoding puts the markers, with their ids in the vocabulary, around the text and
      after the second text, whatever tokens were added and whatever the truncation. *)
  Theorem C97_markers vocab o g ts g' trunc ot input out : sound_vocab vocab -> bert_new P (Some vocab) o = Ok g -> extended P g ts g' -> ot <> ONone ->
    encode (runtime P (put_truncation g' trunc)) ot input true = Ok out ->
    exists sep cls e second e' second', In (str_of (wo_sep o), sep) vocab /\ In (str_of (wo_cls o), cls) vocab /\
      sequences (runtime P (put_truncation g' trunc)) ot input = Ok (e, second) /\ truncate_step (runtime P (put_truncation g' trunc)) e second true = Ok (e', second') /\
      laid_out rows e' second' (bert_layout (str_of (wo_sep o), sep) (str_of (wo_cls o), cls) (is_dual input)) out.
  Proof.
    intros SV H X OT E. destruct (given_config P _ _ _ SV H) as (sep & cls & cs & H1 & H2 & _ & _ & _ & _ & C). pose proof (bert_extended P _ _ _ _ _ _ _ _ C X) as [_ _ _ A4 _ [_ A6] _].
    destruct (C62_bert (runtime P (put_truncation g' trunc)) (str_of (wo_sep o), sep) (str_of (wo_cls o), cls) ot input true out) as (e & pr & e' & pr' & S1 & S2 & S3).
    - cbn [runtime put_truncation tz_post g_post]. rewrite A4. reflexivity.
    - exact A6.
    - exact OT.
    - exact E.
    - exists sep, cls, e, pr, e', pr'. auto.
  Qed.

  (** A text is decoded to its words, those that cannot be spelt left out. *)
  Theorem C97_words vocab o g ts g' s ot : sound_vocab vocab -> bert_new P (Some vocab) o = Ok g -> extended P g ts g' ->
    wo_prefix o = key "##" -> In (str_of (wo_unk o)) (map fst vocab) -> bert_like P (key "##") (str_of (wo_unk o)) (bert_tokens o) -> Forall (harmless P (key "##")) ts ->
    text s -> none_in (map special_text (bert_tokens o) ++ ts) s -> ot <> ONone ->
    exists e ws os, encode (runtime P g') ot (Single (Raw s)) true = Ok e /\
      words_of (pf_pre P) PtBert (normal_text (pf_norm P) (bert_normal o) s) ws /\ told (bert_model (Some vocab) o) true ws os /\
      decode_ids P g' true (ids e) = Ok (sentence true os).
  Proof.
    intros SV H X PX IU (HN & HT & W32 & (c & d & y & EP & PC) & SB & NU & TU) HS TX NI OT.
    destruct (given_config P _ _ _ SV H) as (sep & cls & cs & H1 & H2 & CS & IC & S1 & S2 & C). pose proof (bert_extended P _ _ _ _ _ _ _ _ C X) as C'.
    set (m := wp_given vocab o) in *. destruct (given_sound vocab o SV) as [MO DN]. fold m in MO, DN.
    assert (HO : Forall (harmless P (w_prefix m)) (map special_text cs ++ ts)).
    { apply Forall_app. split; [|exact HS]. apply Forall_forall. intros t IT. apply in_map_iff in IT. destruct IT as (x & <- & IX). repeat split; try reflexivity. 
      - rewrite Forall_forall in SB. destruct (SB x (IC x IX)) as [B _]. exact B.
      - rewrite Forall_forall in SB. destruct (SB x (IC x IX)) as [_ B]. exact B. }
    destruct (bert_is P _ _ _ _ _ _ HN HT C' HO) as [WT TM].
    assert (SW : sound_wordpiece m).
    { destruct SV as (D1 & D2 & LT). split; [exact D1|]. split; [exact D2|]. split; [exact DN|]. split; [|exact NU].
      unfold wp_token_to_id. cbn [m wp_given w_vocab w_unk]. apply in_map_iff in IU. destruct IU as ([u i] & EU & IU). cbn [fst] in EU. subst u. rewrite (In_aget str_eqb str_eqb_eq _ _ _ D1 IU). discriminate. }
    pose proof C' as [A1 A2 A3 A4 A5 [A6 A7] A8].
    assert (NF : Forall (fun t => at_normalized t = false) (map special_text cs ++ ts)) by (eapply Forall_impl; [|exact HO]; intros t (B & _); exact B).
    destruct (plain_history _ _ _ _ _ _ A8 NF) as (AH & _).
    assert (SI : forall x i, In (x, i) vocab -> In x cs -> special_id (wp_vocabulary m) (g_added g') i).
    { intros x i Iv Ix. exists x. split.
      - eapply C25_round_trip_without_normalizer; [exact MO|exact DN|exact AH|]. eapply C25_model_tokens_keep_their_id; [exact AH|]. apply (In_aget str_eqb str_eqb_eq); [apply SV|exact Iv].
      - unfold av_is_special. apply str_mem_In. destruct (special_history _ _ _ _ _ _ AH) as (_ & _ & Q). apply (Q (special_text x)); [apply in_or_app; left; apply in_map; exact Ix|reflexivity|].
        cbn [special_text at_content]. rewrite Forall_forall in SB. destruct (SB x (IC x Ix)) as [(c1 & d1 & y1 & -> & _) _]. discriminate. }
    destruct (C89_bert_skip (runtime P g') m (pf_norm P) (bert_normal o) (pf_pre P) _ s ot true c d y (PBert (str_of (wo_sep o), sep) (str_of (wo_cls o), cls)) [cls; sep] WT TM SW EP PC W32 TU (specials_bracketed P _ _ HO) TX) as (e & ws & os & E & WO & TO & DE).
    - eapply sub_none; [|exact NI]. intros t IT. apply in_app_or in IT. apply in_or_app. destruct IT as [IT|IT]; [left|right; exact IT]. apply in_map_iff in IT. destruct IT as (x & <- & IX). apply in_map. apply IC. exact IX.
    - exact OT.
    - cbn [runtime tz_post]. rewrite A4. reflexivity.
    - exact (aa_bert (str_of (wo_sep o), sep) (str_of (wo_cls o), cls)).
    - constructor; [exact (SI _ _ H2 S2)|constructor; [exact (SI _ _ H1 S1)|constructor]].
    - exact A6.
    - cbn [runtime tz_padding]. exact A7.
    - exists e, ws, os. split; [exact E|]. split; [exact WO|].
      assert (UD : av_is_special (g_added g') (w_unk m) = true).
      { eapply (unk_dropped P); [exact C'| |]. - cbn [m wp_given w_unk]. rewrite Forall_forall in SB. destruct (SB (str_of (wo_unk o)) (or_introl eq_refl)) as [(c1 & d1 & y1 & -> & _) _]. discriminate.
        - exists (special_text (str_of (wo_unk o))). split; [apply in_or_app; left; apply in_map; apply CS; [left; reflexivity|exact IU]|]. split; reflexivity. }
      cbn [runtime tz_added] in TO. rewrite UD in TO. split; [exact TO|]. unfold decode_ids. rewrite A3, A5. cbn [option_map]. rewrite PX. exact DE.
  Qed.

  (** Without a vocabulary nothing is added and there is no post-processor; training
      then gives a tokenizer with the special tokens of the training and no markers. *)
  Theorem C97_from_scratch o : bert_new P None o =
    Ok (mkConfig (Some (CnBert (wo_clean o) (wo_chinese o) (wo_accents o) (wo_lowercase o))) (Some CpBert) (MWordPiece (bert_model None o)) None
          (Some (CdWordPiece (wo_prefix o) true)) av_new None None).
  Proof. reflexivity. Qed.

  Context (by_count : list (char * N) -> list (char * N)) (pop : list tmerge -> option (tmerge * list tmerge)).
  Context (HC : count_sort by_count) (HQ : train_heap pop).

  (** Trained on any texts with the unknown token among the special tokens and the
      same prefix for continuations; then tokens are added: texts are decoded to their
      words, and none is left out of a training text whose words are not longer than
      100 characters, if its characters are in the kept alphabet. *)
  Theorem C97_trained o g vocab_size min_frequency limit initial prefix heap items heap' special texts g1 ts g' :
    bert_new P None o = Ok g -> collect true heap items = (heap', Ok special) ->
    bert_train P by_count pop vocab_size min_frequency limit initial prefix heap items texts g = Ok g1 -> extended P g1 ts g' ->
    Forall text (leaves texts) -> (forall wc, counted (training_words (runtime P g)) (leaves texts) wc -> small_corpus wc) ->
    wo_prefix o = prefix -> In (special_text (str_of (wo_unk o))) special -> bert_like P prefix (str_of (wo_unk o)) [str_of (wo_unk o)] -> Forall (harmless P prefix) (special ++ ts) ->
    exists m wc al, g_model g' = MWordPiece m /\ counted (training_words (runtime P g)) (leaves texts) wc /\
      kept_alphabet (mkTrainer min_frequency vocab_size (map at_content special) (Some limit) initial (Some prefix) None None) wc al /\
      forall s ot add, text s -> none_in (special ++ ts) s ->
        exists e ws os, encode (runtime P g') ot (Single (Raw s)) add = Ok e /\
          words_of (pf_pre P) PtBert (normal_text (pf_norm P) (bert_normal o) s) ws /\ told m true ws os /\ decode_ids P g' true (ids e) = Ok (sentence true os) /\
          (In s (leaves texts) -> Forall (fun w => List.length w <= 100 /\ forall c, In c w -> In c al) ws -> os = ws).
  Proof.
    intros H CL TR X TX SC PX IU (HN & HT & W32 & (c & d & y & EP & PC) & SB & NU & TU) HS. rewrite new_empty in H. injection H as <-. unfold bert_train in TR. rewrite CL in TR.
    destruct (trained_bert P by_count pop HC HQ _ _ _ _ _ _ _ _ _ HN HT TX SC TR) as (m & wc & al & CO & C & EU & EX & EL & MO & DN & D1 & D2 & KS & KA & SP).
    pose proof (bert_extended P _ _ _ _ _ _ _ _ C X) as C'. pose proof C' as [A1 A2 A3 A4 A5 [A6 A7] A8].
    exists m, wc, al. split; [exact A3|]. split; [exact CO|]. split; [exact KA|]. intros s ot add Hs NI. rewrite <- EX in HS.
    destruct (bert_is P _ _ _ _ _ _ HN HT C' HS) as [WT TM].
    assert (SW : sound_wordpiece m).
    { split; [exact D1|]. split; [exact D2|]. split; [exact DN|]. rewrite EU, EX. split; [exact (KS _ IU)|exact NU]. }
    rewrite <- EX in EP. destruct (words_bare (runtime P g') m (pf_norm P) (bert_normal o) (pf_pre P) _ s ot add c d y WT TM SW EP PC W32) as (e & ws & os & E & WO & TO & DE); try assumption.
    - rewrite EU. exact TU.
    - apply specials_bracketed. exact HS.
    - cbn [runtime tz_post]. rewrite A4. reflexivity.
    - assert (UD : av_is_special (g_added g') (w_unk m) = true).
      { eapply (unk_dropped P); [exact C'| |]. - rewrite EU. inversion SB as [|? ? [(c1 & d1 & y1 & -> & _) _] _]; subst. discriminate.
        - exists (special_text (str_of (wo_unk o))). split; [apply in_or_app; left; exact IU|]. rewrite EU. split; reflexivity. }
      exists e, ws, os. cbn [runtime tz_added] in TO. rewrite UD in TO. split; [exact E|]. split; [exact WO|]. split; [exact TO|]. split.
      + unfold decode_ids. rewrite A3, A5. cbn [option_map]. rewrite PX, <- EX. exact DE.
      + intros IS F. refine (WordTripProofs.told_all m true ws os _ TO). apply Forall_forall. intros w IW. rewrite Forall_forall in F. destruct (F w IW) as [LW AW].
        destruct (bert_training_words P o s HN HT Hs) as (ws' & TW & WO'). destruct (punctuation_decided (pf_pre P)) as (pn & HP). apply (words_read (pf_pre P) pn HP) in WO. apply (words_read (pf_pre P) pn HP) in WO'. rewrite <- WO in WO'. subst ws'.
        assert (NZ : 0 < occurrences (training_words (runtime P (empty_bert o))) w (leaves texts)).
        { clear -IS TW IW. induction (leaves texts) as [|x l IH]; [destruct IS|]. unfold occurrences in *. cbn [map list_sum fold_right]. destruct IS as [->|IS]; [|specialize (IH IS); unfold list_sum in IH; lia].
          rewrite TW. apply (count_occ_In (list_eq_dec N.eq_dec)) in IW. lia. }
        apply (SP w (N.of_nat (occurrences (training_words (runtime P (empty_bert o))) w (leaves texts)))); [|exact LW|exact AW]. apply CO. split; [reflexivity|lia].
  Qed.

  (** No markers come with training: asking for special tokens changes nothing. *)
  Theorem C97_unmarked o g vocab_size min_frequency limit initial prefix heap items texts g1 ts g' :
    bert_new P None o = Ok g -> bert_train P by_count pop vocab_size min_frequency limit initial prefix heap items texts g = Ok g1 -> extended P g1 ts g' ->
    forall ot input, encode (runtime P g') ot input true = encode (runtime P g') ot input false.
  Proof.
    intros H TR X. rewrite new_empty in H. injection H as <-.
    assert (E1 : g_post g1 = None /\ g_truncation g1 = None).
    { unfold bert_train in TR. destruct (collect true heap items) as [h [special| |]]; try discriminate. destruct (trained_runtime P by_count pop _ _ _ _ _ TR) as (z & _ & ->). split; reflexivity. }
    assert (E : g_post g' = None /\ g_truncation g' = None).
    { induction X as [|ts g2 more g3 n X IH A|ts g2 b X IH]; [exact E1| |exact IH]. unfold tokenizer_add in A. destruct (add_tokens _ _ _ _ _) in A. injection A as <- _. exact IH. }
    destruct E as [EA EB]. intros ot input.
    assert (PS : forall e second, post_process (runtime P g') e second true = post_process (runtime P g') e second false).
    { intros e second. unfold post_process, truncate_step, process_step. cbn [runtime tz_post tz_truncation]. rewrite EA, EB. reflexivity. }
    rewrite !encode_sequences. destruct (other (sequences (runtime P g') ot input)) as [[e second]| |]; cbn [bind]; auto.
  Qed.
End bert.

(** Of an [AddedToken] given for a token only the text is used. *)
Theorem C97_flags_lost : forall W (P : platform W) vocab o,
  let bare a := ArgText (str_of a) in
  bert_new P vocab o = bert_new P vocab (mkBertOptions (bare (wo_unk o)) (bare (wo_sep o)) (bare (wo_cls o)) (bare (wo_pad o)) (bare (wo_mask o))
    (wo_clean o) (wo_chinese o) (wo_accents o) (wo_lowercase o) (wo_prefix o)).
Proof. intros W P [vocab|] o; reflexivity. Qed.

(** ** Examples and findings *)
Definition be_vocab (l : list string) : list (str * N) := combine (map key l) (map N.of_nat (seq 0 (List.length l))).
Definition be_full : list (str * N) := be_vocab ["[PAD]"; "[UNK]"; "[CLS]"; "[SEP]"; "[MASK]"; "un"; "##a"; "##b"; ","; "."; "'"; "t"]%string.
Definition be_given (l : list (str * N)) (o : bert_options) : res unit (config Z) := bert_new bl_platform (Some l) o.
Definition be_ids (g : config Z) (s : string) : res unit (list N) :=
  let! e := boxed (encode (runtime bl_platform g) OChar (Single (Raw (key s))) true) in Ok (ids e).
Definition be_trip (g : config Z) (skip : bool) (s : string) : res unit str := let! l := be_ids g s in decode_ids bl_platform g skip l.
Definition be_items : list item := map (fun s => ItStr (key s)) ["[PAD]"; "[UNK]"; "[CLS]"; "[SEP]"; "[MASK]"]%string.
Definition be_texts : reduction str := RNode (RLeaf (key "ab ab")) (RLeaf (key "ab b")).
Definition be_train (g : config Z) : res unit (config Z) := bert_train bl_platform sort_count pop_first 30 2 1000 [] (key "##") [] be_items be_texts g.
Definition be_prefix (p : str) : bert_options :=
  mkBertOptions (ArgText (key "[UNK]")) (ArgText (key "[SEP]")) (ArgText (key "[CLS]")) (ArgText (key "[PAD]")) (ArgText (key "[MASK]")) true true None true p.

Lemma be_sound : sound_vocab be_full.
Proof.
  split; [apply (nodup_check str_eqb); [apply str_eqb_eq|vm_compute; reflexivity]|]. split; [apply (nodup_check N.eqb); [apply N.eqb_eq|vm_compute; reflexivity]|].
  intros t i H. assert (G : forallb (fun x : str * N => N.ltb (snd x) (N.of_nat (List.length be_full))) be_full = true) by (vm_compute; reflexivity).
  rewrite forallb_forall in G. specialize (G _ H). cbn [snd] in G. lia.
Qed.
Lemma be_like : bert_like bl_platform (key "##") (key "[UNK]") (bert_tokens bert_defaults).
Proof.
  split; [exact NormalizersProps.C68_tables_example|]. split; [exact toy_sane|]. split; [reflexivity|]. split; [exists 35%N, 35%N, []; split; [reflexivity|left; cbn; tauto]|]. split; [|split].
  - repeat (apply Forall_cons; [split; [do 3 eexists; split; [reflexivity|left; cbn; tauto]|intros y; discriminate]|]). constructor.
  - intros y. discriminate.
  - unfold tidy, clean_rules. repeat (apply Forall_cons; [cbn [fst]; intros (u & v & E); destruct u as [|? [|? [|? [|? [|? [|? [|? u]]]]]]]; cbn in E; discriminate E|]). constructor.
Qed.
Lemma be_free (s : string) : ~ In 91%N (key s) -> none_in (map special_text (bert_tokens bert_defaults)) (key s).
Proof.
  intros NI. assert (O : forall u, In 91%N u -> ~ occurs u (key s)) by (intros u I (a & b & E); apply NI; rewrite E; apply in_or_app; right; apply in_or_app; left; exact I).
  repeat (constructor; [right; apply O; left; reflexivity|]). constructor.
Qed.

(** "UnAb, Un't z." is given the markers and comes back as "unab, un ' t." *)
Example C97_words_example : sound_vocab be_full /\ bert_like bl_platform (key "##") (key "[UNK]") (bert_tokens bert_defaults) /\ In (key "[UNK]") (map fst be_full) /\
  (forall l, NoDup (map fst l) -> pf_build bl_platform l = true) /\ text (key "UnAb, Un't z.") /\ none_in (map special_text (bert_tokens bert_defaults) ++ []) (key "UnAb, Un't z.") /\
  exists g, be_given be_full bert_defaults = Ok g /\ be_ids g "UnAb, Un't z." = Ok [2; 5; 6; 7; 8; 5; 10; 11; 1; 9; 3]%N /\ be_trip g true "UnAb, Un't z." = Ok (key "unab, un ' t.").
Proof.
  split; [exact be_sound|]. split; [exact be_like|]. split; [cbn; tauto|]. split; [exact bl_builds|]. split; [repeat constructor|]. split.
  - rewrite app_nil_r. apply be_free. cbn. intuition discriminate.
  - eexists. split; [vm_compute; reflexivity|]. split; [vm_compute; reflexivity|]. vm_compute. reflexivity.
Qed.

Lemma two_texts (f : str -> res unit (list str)) (s t a b w : str) : a <> b -> f s = Ok [a; a] -> f t = Ok [a; b] -> 0 < occurrences f w [s; t] ->
  (w = a /\ occurrences f w [s; t] = 3) \/ (w = b /\ occurrences f w [s; t] = 1).
Proof.
  intros NE E1 E2. unfold occurrences. cbn [map list_sum fold_right]. rewrite E1, E2. cbn [count_occ]. destruct (list_eq_dec N.eq_dec a w) as [<-|N1]; [|destruct (list_eq_dec N.eq_dec b w) as [<-|N2]]; intros L.
  - left. destruct (list_eq_dec N.eq_dec b a) as [E|_]; [congruence|]. split; reflexivity.
  - right. split; reflexivity.
  - lia.
Qed.
Lemma be_counted wc : counted (training_words (runtime bl_platform (empty_bert bert_defaults))) (leaves be_texts) wc -> small_corpus wc.
Proof.
  intros C. unfold small_corpus. assert (X : forall w n, In (w, n) wc -> (w = key "ab" /\ n = 3%N) \/ (w = key "b" /\ n = 1%N)).
  { intros w n I. apply C in I. destruct I as [EN L].
    assert (E1 : training_words (runtime bl_platform (empty_bert bert_defaults)) (key "ab ab") = Ok [key "ab"; key "ab"]) by (vm_compute; reflexivity).
    assert (E2 : training_words (runtime bl_platform (empty_bert bert_defaults)) (key "ab b") = Ok [key "ab"; key "b"]) by (vm_compute; reflexivity).
    assert (NE : key "ab" <> key "b") by discriminate. change (leaves be_texts) with [key "ab ab"; key "ab b"] in EN.
    destruct (two_texts _ _ _ _ _ w NE E1 E2) as [[H1 H2]|[H1 H2]]; [lia|left|right]; rewrite EN, H2; split; auto. }
  destruct C as [D _]. assert (L : incl wc [(key "ab", 3%N); (key "b", 1%N)]).
  { intros [w n] I. destruct (X w n I) as [[-> ->]|[-> ->]]; [left; reflexivity|right; left; reflexivity]. }
  assert (ND : NoDup wc) by (eapply NoDup_map_inv; exact D).
  destruct wc as [|a [|b [|c wc]]]; [cbn; lia| | |apply NoDup_incl_length in L; [cbn in L; lia|exact ND]].
  - destruct (L a (or_introl eq_refl)) as [<-|[<-|[]]]; vm_compute; reflexivity.
  - destruct (L a (or_introl eq_refl)) as [<-|[<-|[]]], (L b (or_intror (or_introl eq_refl))) as [<-|[<-|[]]]; vm_compute; reflexivity.
Qed.
(** "ab, b z." comes back as "ab b", without markers, and the training text "ab b" whole. *)
Example C97_trained_example : Forall text (leaves be_texts) /\ (forall wc, counted (training_words (runtime bl_platform (empty_bert bert_defaults))) (leaves be_texts) wc -> small_corpus wc) /\
  collect true [] be_items = ([], Ok (map special_text (map key ["[PAD]"; "[UNK]"; "[CLS]"; "[SEP]"; "[MASK]"]%string))) /\
  Forall (harmless bl_platform (key "##")) (map special_text (map key ["[PAD]"; "[UNK]"; "[CLS]"; "[SEP]"; "[MASK]"]%string)) /\
  bert_new bl_platform None bert_defaults = Ok (empty_bert bert_defaults) /\
  exists g1, be_train (empty_bert bert_defaults) = Ok g1 /\ be_ids g1 "ab, b z." = Ok [8; 1; 6; 1; 1]%N /\ be_trip g1 true "ab, b z." = Ok (key "ab b") /\ be_trip g1 true "ab b" = Ok (key "ab b").
Proof.
  split; [repeat constructor|]. split; [exact be_counted|]. split; [reflexivity|]. split.
  { repeat (apply Forall_cons; [repeat split; [do 3 eexists; split; [reflexivity|left; cbn; tauto]|intros y; discriminate]|]). constructor. }
  split; [reflexivity|]. eexists. split; [vm_compute; reflexivity|]. split; [vm_compute; reflexivity|]. split; [vm_compute; reflexivity|]. vm_compute. reflexivity.
Qed.

(** A vocabulary without the unknown token is accepted, and then a text with an unknown
    word is not encoded. *)
Theorem C97_unk_refuted : exists g, be_given (be_vocab ["[CLS]"; "[SEP]"; "a"]%string) bert_defaults = Ok g /\ be_ids g "a" = Ok [0; 2; 1]%N /\ be_ids g "a z" = Err tt.
Proof. eexists. split; [vm_compute; reflexivity|]. split; [vm_compute; reflexivity|]. vm_compute. reflexivity. Qed.
(** Another prefix for continuations is used in decoding only: the word "una", cut into
    "un" and "##a", comes back as "un ##a". *)
Theorem C97_prefix_refuted : exists g, be_given be_full (be_prefix (key "@@")) = Ok g /\ be_ids g "una" = Ok [2; 5; 6; 3]%N /\ be_trip g true "una" = Ok (key "un ##a").
Proof. eexists. split; [vm_compute; reflexivity|]. split; [vm_compute; reflexivity|]. vm_compute. reflexivity. Qed.
(** A tokenizer made with a vocabulary and then trained keeps the markers with their ids
    of before.  The new model gives these ids to other tokens, here to the words of the
    training text, which are then taken for special tokens and left out. *)
Theorem C97_stale_refuted : exists g g1, be_given (be_vocab ["v"; "w"; "x"; "y"; "z"; "[UNK]"; "[CLS]"; "t"; "[SEP]"]%string) bert_defaults = Ok g /\ be_train g = Ok g1 /\
  be_ids g1 "ab b" = Ok [6; 8; 6; 8]%N /\ wp_token_to_id (match g_model g1 with MWordPiece m => m | _ => bert_model None bert_defaults end) (key "ab") = Some 8%N /\
  be_trip g1 false "ab b" = Ok (key "[CLS] [SEP] [CLS] [SEP]") /\ be_trip g1 true "ab b" = Ok [].
Proof.
  eexists _, _. split; [vm_compute; reflexivity|]. split; [vm_compute; reflexivity|]. split; [vm_compute; reflexivity|]. split; [vm_compute; reflexivity|]. split; [vm_compute; reflexivity|]. vm_compute. reflexivity.
Qed.
