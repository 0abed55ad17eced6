(** C90, C91: BPE with an end of word suffix, and WordLevel. *)
From Verif Require Import Base ListFacts StrBytes Utf8 AMap EncodingModel EncodingSpec NormModel NormalizersModel NormalizersSpec PatternModel PatternSpec
  PreTokenizersModel PreTokenizersSpec DecodersModel DecodersSpec AddedModel AddedSpec AddedProofs AddedProofs2 AddedProps
  BpeWordModel BpeWordSpec BpeModel BpeSpec BpeProofs BpeProps TokenizerModel EndToEndProofs PreTokModel RoundTripModel RoundTripSpec RoundTripProofs WordPieceModel WordPieceSpec SpmTripModel SpmTripSpec
  PreTokenizersProps NormalizersProps WordTripModel WordTripSpec WordTripProofs CharTripModel CharTripSpec CharTripProofs.

(** Whatever the normalizer and the pre-tokenizer: if the words are written in the
    alphabet of the vocabulary and do not have the suffix in them, a text is decoded to
    its words, with single spaces between them. *)
Theorem C90_words : forall t pop m draws vocab merges sf TN nz TP p offered s ot add,
  word_tokenizer t (bpe_vocabulary m) TN nz TP p offered -> heap_ok pop -> tz_model t = bpe_model pop m draws -> char_bpe vocab merges sf m ->
  text s -> none_in offered s ->
  (forall ws, words_of TP p (normal_text TN nz s) ws -> Forall (fun w => in_alphabet vocab sf w /\ ends_once sf w) ws) ->
  tz_post t = None -> tz_truncation t = None -> tz_padding t = None ->
  exists e ws, encode t ot (Single (Raw s)) add = Ok e /\ words_of TP p (normal_text TN nz s) ws /\
    (ws <> [] -> AddedModel.decode (bpe_vocabulary m) (tz_added t) (Some (DecodersModel.decode_tokens (DBpe sf))) false (ids e) = Ok (join_spaces ws)).
Proof.
  intros t pop m draws vocab merges sf TN nz TP p offered s ot add WT HP TM CB TX NI NW Ho Ht Hp.
  destruct (char_ids pop vocab merges sf m draws t TN nz TP p offered s 0%N ot WT HP TM CB Ht TX NI) as (e & ws & tss & E & W & TW & FM & F & I & N).
  { intros ws W. eapply Forall_impl; [|exact (NW ws W)]. intros w [X _]. exact X. }
  exists e, ws. split; [|split; [exact W|]].
  - cbn [encode encode_single]. rewrite E. cbn [other bind]. unfold post_process, truncate_step, process_step, pad_step. rewrite Ho, Ht, Hp. reflexivity.
  - intros NE. unfold AddedModel.decode. rewrite I, kept_values by exact N. rewrite unfiltered, concat_map. unfold DecodersModel.decode_tokens. cbn [decode_chain]. unfold bpe_decode.
    replace (is_nil (concat (map (map t_value) tss))) with false.
    + cbn [bind]. rewrite (words_back sf ws); [reflexivity|apply CB|exact F|]. eapply Forall_impl; [|exact (NW ws W)]. intros w [_ X]. exact X.
    + destruct F as [|w vs ws' vss (xs & x & -> & _) F]; [congruence|]. destruct xs; reflexivity.
Qed.

(** As [CharBPETokenizer] makes it, with the pre-tokenizer of BERT and a suffix such
    as "</w>": only the alphabet matters. *)
Theorem C90_bert : forall t pop m draws vocab merges sf TN nz TP offered s ot add,
  word_tokenizer t (bpe_vocabulary m) TN nz TP PtBert offered -> heap_ok pop -> tz_model t = bpe_model pop m draws -> char_bpe vocab merges sf m ->
  marked TP sf -> text s -> none_in offered s ->
  (forall ws, words_of TP PtBert (normal_text TN nz s) ws -> Forall (in_alphabet vocab sf) ws) ->
  tz_post t = None -> tz_truncation t = None -> tz_padding t = None ->
  exists e ws, encode t ot (Single (Raw s)) add = Ok e /\ words_of TP PtBert (normal_text TN nz s) ws /\
    (ws <> [] -> AddedModel.decode (bpe_vocabulary m) (tz_added t) (Some (DecodersModel.decode_tokens (DBpe sf))) false (ids e) = Ok (join_spaces ws)).
Proof.
  intros t pop m draws vocab merges sf TN nz TP offered s ot add WT HP TM CB MK TX NI NW Ho Ht Hp.
  eapply C90_words; eauto. intros ws W. pose proof (bert_words _ _ _ W) as B. specialize (NW ws W). apply Forall_forall. intros w I. rewrite Forall_forall in NW, B. split; [auto|]. eapply marked_once; eauto.
Qed.

(** The decoded text is encoded to the same ids, if the normalizer leaves it as it is. *)
Theorem C90_bert_again : forall t pop m draws vocab merges sf TN nz TP offered s ot add,
  word_tokenizer t (bpe_vocabulary m) TN nz TP PtBert offered -> heap_ok pop -> tz_model t = bpe_model pop m draws -> char_bpe vocab merges sf m ->
  marked TP sf -> is_ws TP 32%N = true -> text s -> none_in offered s ->
  (forall ws, words_of TP PtBert (normal_text TN nz s) ws -> ws <> [] /\ Forall (in_alphabet vocab sf) ws) ->
  tz_post t = None -> tz_truncation t = None -> tz_padding t = None ->
  exists e out, encode t ot (Single (Raw s)) add = Ok e /\
    AddedModel.decode (bpe_vocabulary m) (tz_added t) (Some (DecodersModel.decode_tokens (DBpe sf))) false (ids e) = Ok out /\
    (normal_text TN nz out = out -> none_in offered out -> exists e', encode t ot (Single (Raw out)) add = Ok e' /\ ids e' = ids e).
Proof.
  intros t pop m draws vocab merges sf TN nz TP offered s ot add WT HP TM CB MK W32 TX NI NW Ho Ht Hp.
  destruct (char_ids pop vocab merges sf m draws t TN nz TP PtBert offered s 0%N ot WT HP TM CB Ht TX NI) as (e & ws & tss & E & W & TW & FM & F & I & N).
  { intros ws W. apply (NW ws W). }
  pose proof (bert_words _ _ _ W) as BW. destruct (NW ws W) as [NE AL].
  assert (EN : forall x e', encode_part t 0%N ot None x = Ok e' -> encode t ot (Single (Raw x)) add = Ok e').
  { intros x e' E'. cbn [encode encode_single]. rewrite E'. cbn [other bind]. unfold post_process, truncate_step, process_step, pad_step. rewrite Ho, Ht, Hp. reflexivity. }
  exists e, (join_spaces ws). split; [apply EN; exact E|]. split.
  - unfold AddedModel.decode. rewrite I, kept_values by exact N. rewrite unfiltered, concat_map. unfold DecodersModel.decode_tokens. cbn [decode_chain]. unfold bpe_decode.
    replace (is_nil (concat (map (map t_value) tss))) with false.
    + cbn [bind]. rewrite (words_back sf ws); [reflexivity|apply CB|exact F|]. eapply Forall_impl; [|exact BW]. intros w X. eapply marked_once; eauto.
    + destruct F as [|w vs ws' vss (xs & x & -> & _) F]; [congruence|]. destruct xs; reflexivity.
  - intros NX NI'. rewrite <- sentence_plain in *. destruct (punctuation_decided TP) as (pn & PD).
    assert (R : forall ws', words_of TP PtBert (normal_text TN nz (sentence false ws)) ws' -> ws' = ws).
    { intros ws' W'. rewrite NX in W'. apply (words_read TP pn PD) in W'. rewrite (read_sentence TP pn PD false W32 ws BW) in W'. exact W'. }
    destruct (char_ids pop vocab merges sf m draws t TN nz TP PtBert offered (sentence false ws) 0%N ot WT HP TM CB Ht (sentence_text false ws TW) NI') as (e' & ws' & tss' & E' & W' & _ & FM' & _ & I' & _).
    { intros ws' W'. rewrite (R ws' W'). exact AL. }
    rewrite (R ws' W') in FM'. exists e'. split; [apply EN; exact E'|]. rewrite I', I, (same_answers _ _ _ _ FM FM'). reflexivity.
Qed.

(** Split at white space only ([split_on_whitespace_only]): the suffix must not be in the
    text.  Here too the decoded text is encoded to the same ids. *)
Theorem C90_spaces : forall t pop m draws vocab merges c y TN nz TP offered s ot add,
  word_tokenizer t (bpe_vocabulary m) TN nz TP PtWhitespaceSplit offered -> heap_ok pop -> tz_model t = bpe_model pop m draws -> char_bpe vocab merges (c :: y) m ->
  ~ In c y -> ~ occurs (c :: y) (normal_text TN nz s) -> is_ws TP 32%N = true -> text s -> none_in offered s ->
  (forall ws, words_of TP PtWhitespaceSplit (normal_text TN nz s) ws -> ws <> [] /\ Forall (in_alphabet vocab (c :: y)) ws) ->
  tz_post t = None -> tz_truncation t = None -> tz_padding t = None ->
  exists e ws, encode t ot (Single (Raw s)) add = Ok e /\ words_of TP PtWhitespaceSplit (normal_text TN nz s) ws /\
    AddedModel.decode (bpe_vocabulary m) (tz_added t) (Some (DecodersModel.decode_tokens (DBpe (c :: y)))) false (ids e) = Ok (join_spaces ws) /\
    (normal_text TN nz (join_spaces ws) = join_spaces ws -> none_in offered (join_spaces ws) -> exists e', encode t ot (Single (Raw (join_spaces ws))) add = Ok e' /\ ids e' = ids e).
Proof.
  intros t pop m draws vocab merges c y TN nz TP offered s ot add WT HP TM CB NC NO W32 TX NI NW Ho Ht Hp.
  destruct (char_ids pop vocab merges (c :: y) m draws t TN nz TP PtWhitespaceSplit offered s 0%N ot WT HP TM CB Ht TX NI) as (e & ws & tss & E & W & TW & FM & F & I & N).
  { intros ws W. apply (NW ws W). }
  pose proof (spaces_inside TP _ _ W) as SI. destruct (NW ws W) as [NE AL].
  assert (EN : forall x e', encode_part t 0%N ot None x = Ok e' -> encode t ot (Single (Raw x)) add = Ok e').
  { intros x e' E'. cbn [encode encode_single]. rewrite E'. cbn [other bind]. unfold post_process, truncate_step, process_step, pad_step. rewrite Ho, Ht, Hp. reflexivity. }
  exists e, ws. split; [apply EN; exact E|]. split; [exact W|]. split.
  - unfold AddedModel.decode. rewrite I, kept_values by exact N. rewrite unfiltered, concat_map. unfold DecodersModel.decode_tokens. cbn [decode_chain]. unfold bpe_decode.
    replace (is_nil (concat (map (map t_value) tss))) with false.
    + cbn [bind]. rewrite (words_back (c :: y) ws); [reflexivity|apply CB|exact F|]. eapply Forall_impl; [|exact SI]. intros w (_ & (a & b & O) & _). apply unbordered_once; [exact NC|].
      intros (a' & b' & O'). apply NO. exists (a ++ a'), (b' ++ b). rewrite O, O', <- !app_assoc. reflexivity.
    + destruct F as [|w vs ws' vss (xs & x & -> & _) F]; [congruence|]. destruct xs; reflexivity.
  - intros NX NI'. assert (R : forall ws', words_of TP PtWhitespaceSplit (normal_text TN nz (join_spaces ws)) ws' -> ws' = ws).
    { intros ws' W'. rewrite NX in W'. apply spaces_words in W'. rewrite (spaces_joined TP W32 ws) in W'; [exact W'|]. eapply Forall_impl; [|exact SI]. intros w (X & _ & Y). auto. }
    assert (TJ : text (join_spaces ws)) by (rewrite <- sentence_plain; apply sentence_text; exact TW).
    destruct (char_ids pop vocab merges (c :: y) m draws t TN nz TP PtWhitespaceSplit offered (join_spaces ws) 0%N ot WT HP TM CB Ht TJ NI') as (e' & ws' & tss' & E' & W' & _ & FM' & _ & I' & _).
    { intros ws' W'. rewrite (R ws' W'). exact AL. }
    rewrite (R ws' W') in FM'. exists e'. split; [apply EN; exact E'|]. rewrite I', I, (same_answers _ _ _ _ FM FM'). reflexivity.
Qed.

(** ** WordLevel *)
(** Without a decoder: the words with single spaces between them, and the unknown token
    for the words that are not in the vocabulary. *)
Theorem C91_words : forall t m TN nz TP p offered s ot add,
  word_tokenizer t (wl_vocabulary m) TN nz TP p offered -> tz_model t = wl_model m -> sound_wordlevel m ->
  text s -> none_in offered s ->
  (forall ws, words_of TP p (normal_text TN nz s) ws -> Forall (fun w => w <> []) ws) ->
  tz_post t = None -> tz_truncation t = None -> tz_padding t = None ->
  exists e ws os, encode t ot (Single (Raw s)) add = Ok e /\ words_of TP p (normal_text TN nz s) ws /\ Forall2 (listed m) ws os /\
    AddedModel.decode (E := unit) (wl_vocabulary m) (tz_added t) None false (ids e) = Ok (join_spaces os).
Proof.
  intros t m TN nz TP p offered s ot add WT TM SL TX NI NW Ho Ht Hp.
  destruct (wl_ids m t TN nz TP p offered s 0%N ot WT TM SL Ht TX NI NW) as (e & ws & os & toks & E & W & TW & FM & F & EO & I & N).
  exists e, ws, os. split; [|split; [exact W|split; [exact F|]]].
  - cbn [encode encode_single]. rewrite E. cbn [other bind]. unfold post_process, truncate_step, process_step, pad_step. rewrite Ho, Ht, Hp. reflexivity.
  - unfold AddedModel.decode. rewrite I, kept_values by exact N. rewrite unfiltered, <- EO, join_space_spaces. reflexivity.
Qed.

(** One id for each word, and the decoded text is encoded to the same ids if all words
    are in the vocabulary and the normalizer leaves it as it is. *)
Theorem C91_bert_again : forall t m TN nz TP offered s ot add,
  word_tokenizer t (wl_vocabulary m) TN nz TP PtBert offered -> tz_model t = wl_model m -> sound_wordlevel m ->
  is_ws TP 32%N = true -> text s -> none_in offered s ->
  tz_post t = None -> tz_truncation t = None -> tz_padding t = None ->
  exists e ws out, encode t ot (Single (Raw s)) add = Ok e /\ words_of TP PtBert (normal_text TN nz s) ws /\
    AddedModel.decode (E := unit) (wl_vocabulary m) (tz_added t) None false (ids e) = Ok out /\
    length (ids e) = length ws /\
    (Forall (fun w => In w (map fst (l_vocab m))) ws -> normal_text TN nz out = out -> none_in offered out ->
     exists e', encode t ot (Single (Raw out)) add = Ok e' /\ ids e' = ids e).
Proof.
  intros t m TN nz TP offered s ot add WT TM SL W32 TX NI Ho Ht Hp.
  assert (NE : forall s ws, words_of TP PtBert (normal_text TN nz s) ws -> Forall (fun w => w <> []) ws).
  { intros s' ws W. apply bert_words in W. eapply Forall_impl; [|exact W]. intros w [X _]. exact X. }
  destruct (wl_ids m t TN nz TP PtBert offered s 0%N ot WT TM SL Ht TX NI (NE s)) as (e & ws & os & toks & E & W & TW & FM & F & EO & I & N).
  pose proof (bert_words _ _ _ W) as BW.
  assert (EN : forall x e', encode_part t 0%N ot None x = Ok e' -> encode t ot (Single (Raw x)) add = Ok e').
  { intros x e' E'. cbn [encode encode_single]. rewrite E'. cbn [other bind]. unfold post_process, truncate_step, process_step, pad_step. rewrite Ho, Ht, Hp. reflexivity. }
  exists e, ws, (join_spaces os). split; [apply EN; exact E|]. split; [exact W|]. split; [|split].
  - unfold AddedModel.decode. rewrite I, kept_values by exact N. rewrite unfiltered, <- EO, join_space_spaces. reflexivity.
  - rewrite I, map_length. clear -FM. induction FM; cbn; auto.
  - intros AL. assert (os = ws) as ->. { clear -F AL. revert AL. induction F as [|w o ws os H _ IH]; intros AL; [reflexivity|]. apply Forall_cons_iff in AL. destruct AL as [A1 A2]. rewrite IH by exact A2. destruct H as [[_ ->]|[X _]]; [reflexivity|contradiction]. }
    intros NX NI'. rewrite <- sentence_plain in *. destruct (punctuation_decided TP) as (pn & PD).
    destruct (wl_ids m t TN nz TP PtBert offered (sentence false ws) 0%N ot WT TM SL Ht (sentence_text false ws TW) NI' (NE _)) as (e' & ws' & os' & toks' & E' & W' & _ & FM' & _ & _ & I' & _).
    rewrite NX in W'. apply (words_read TP pn PD) in W'. rewrite (read_sentence TP pn PD false W32 ws BW) in W'. subst ws'.
    exists e'. split; [apply EN; exact E'|]. rewrite I', I. f_equal. clear -FM FM'. revert toks' FM'. induction FM as [|w u ws us H _ IH]; intros vs H'; inversion H' as [|? v ? vs' X Y]; subst; [reflexivity|]. f_equal; [congruence|auto].
Qed.

(** ** Examples *)
(** a | b | a</w> | b</w> | .</w> | ab</w> | < | / | w | > | <unk> | </ | w> | </w> *)
Definition ct_vocab : list (str * N) :=
  [([97], 0); ([98], 1); ([97; 60; 47; 119; 62], 2); ([98; 60; 47; 119; 62], 3); ([46; 60; 47; 119; 62], 4); ([97; 98; 60; 47; 119; 62], 5);
   ([60], 6); ([47], 7); ([119], 8); ([62], 9); ([60; 117; 110; 107; 62], 10); ([60; 47], 11); ([119; 62], 12); ([60; 47; 119; 62], 13)]%N.
Definition ct_merges : list (str * str) := [([97], [98; 60; 47; 119; 62]); ([60], [47]); ([119], [62]); ([60; 47], [119; 62])]%N.
Definition ct_suffix : str := [60; 47; 119; 62]%N.
Definition ct_bpe : bpe :=
  match bpe_build ct_vocab ct_merges DNone (Some [60; 117; 110; 107; 62]%N) None (Some ct_suffix) false false false with Ok m => m | _ => ex_bpe end.
Definition ct_offered : list added_token := [mkAdded [60; 117; 110; 107; 62]%N false false false false true].
Definition ct_all : list (str * N) -> bool := fun _ => true.
Definition ct_draws : str -> nat -> bool := fun _ _ => false.
Definition ct_added (mv : model_vocab) : added_vocab := fst (add_tokens ct_all mv None ct_offered av_new).
Definition ct_normalizer : normalizer := NBert true true None false.
Definition ct_tokenizer (mv : model_vocab) (answer : str -> res unit (list token)) (p : pre_tokenizer) : tokenizer :=
  mkTokenizer (fun c => N.eqb c 32) (fun _ => false) (fun c => N.eqb c 32) (run_normalizer ex_tables ct_normalizer) (Some (pre_tokenize toy_tables p))
    answer None (ct_added mv) None None.

Lemma ct_is mv answer p : PreTokenizersSpec.usable p -> (exists n, snd (add_tokens ct_all mv None ct_offered av_new) = Some n) ->
  word_tokenizer (ct_tokenizer mv answer p) mv ex_tables ct_normalizer toy_tables p ct_offered.
Proof.
  intros U (n & R). split; [split; [exact C68_tables_example|split; [exact Logic.I|reflexivity]]|]. split; [split; [exact toy_sane|split; [exact U|reflexivity]]|]. split; [|repeat constructor].
  exists ct_all, no_norm. eexists. cbn [ct_tokenizer tz_added]. unfold ct_added.
  destruct (add_tokens ct_all mv None ct_offered av_new) as [av r] eqn:A. cbn [fst snd] in *. subst r.
  apply (ah_add ct_all mv no_norm av_new [] [] None ct_offered av n); [apply ah_new|intros f H; discriminate H|exact A].
Qed.
Lemma ct_sound : char_bpe ct_vocab ct_merges ct_suffix ct_bpe.
Proof.
  split; [split; [cbn; repeat constructor; cbn; intuition discriminate|exists DNone, (Some [60; 117; 110; 107; 62]%N), (Some ct_suffix), false, false, false; vm_compute; reflexivity]|].
  split; [reflexivity|]. split; [reflexivity|]. split; [discriminate|]. split; [cbn; repeat constructor; cbn; intuition discriminate|].
  intros t i H. cbn [bpe_vocabulary mv_token_to_id mv_size] in *. unfold b_id in H. apply (aget_In str_eqb str_eqb_eq) in H. cbn in H. cbn.
  repeat (destruct H as [H|H]; [injection H as <- <-; lia|]). destruct H.
Qed.
Lemma ct_free s : ~ In 117%N s -> none_in ct_offered s.
Proof.
  intros N. constructor; [|constructor]. right. intros (a & b & E). apply N. rewrite E. apply in_or_app. right. apply in_or_app. left. right. left. reflexivity.
Qed.
Definition ct_decode (l : list N) : res unit str :=
  AddedModel.decode (bpe_vocabulary ct_bpe) (ct_added (bpe_vocabulary ct_bpe)) (Some (DecodersModel.decode_tokens (DBpe ct_suffix))) false l.

(** "ab a." meets the conditions of [C90_bert] and [C90_bert_again], and is shown as
    "ab a ." *)
Definition ct_text : str := [97; 98; 32; 97; 46]%N.
Example C90_bert_ex :
  word_tokenizer (ct_tokenizer (bpe_vocabulary ct_bpe) (bpe_model pop_min ct_bpe ct_draws) PtBert) (bpe_vocabulary ct_bpe) ex_tables ct_normalizer toy_tables PtBert ct_offered /\
  heap_ok pop_min /\ char_bpe ct_vocab ct_merges ct_suffix ct_bpe /\ marked toy_tables ct_suffix /\ is_ws toy_tables 32%N = true /\ text ct_text /\ none_in ct_offered ct_text /\
  (forall ws, words_of toy_tables PtBert (normal_text ex_tables ct_normalizer ct_text) ws -> ws <> [] /\ Forall (in_alphabet ct_vocab ct_suffix) ws) /\
  exists e, encode (ct_tokenizer (bpe_vocabulary ct_bpe) (bpe_model pop_min ct_bpe ct_draws) PtBert) OByte (Single (Raw ct_text)) false = Ok e /\ ids e = [5; 2; 4]%N /\
    ct_decode (ids e) = Ok [97; 98; 32; 97; 32; 46]%N.
Proof.
  split; [apply ct_is; [exact Logic.I|exists 1; vm_compute; reflexivity]|]. split; [exact pop_min_ok|]. split; [exact ct_sound|].
  split; [exists 60%N, 47%N, [119; 62]%N; split; [reflexivity|]; split; [discriminate|left; cbn; tauto]|]. split; [reflexivity|]. split; [repeat constructor|]. split; [apply ct_free; cbn; intuition discriminate|]. split.
  - intros ws W. destruct (punctuation_decided toy_tables) as (pn & PD). apply (words_read toy_tables pn PD) in W.
    assert (P46 : pn 46%N = true) by (apply PD; left; cbn; tauto).
    assert (P97 : pn 97%N = false) by (destruct (pn 97%N) eqn:E; [apply PD in E; destruct E as [E|E]; [cbn in E; intuition discriminate|discriminate E]|reflexivity]).
    assert (P98 : pn 98%N = false) by (destruct (pn 98%N) eqn:E; [apply PD in E; destruct E as [E|E]; [cbn in E; intuition discriminate|discriminate E]|reflexivity]).
    change (normal_text ex_tables ct_normalizer ct_text) with ct_text in W. unfold ct_text in W. cbn [read] in W. rewrite P46, P97, P98 in W. cbn in W. subst ws. split; [discriminate|].
    assert (AW : forall w, In w [[97; 98]; [97]; [46]]%N -> in_alphabet ct_vocab ct_suffix w).
    { intros w Iw. split; [cbn in Iw; intuition (subst; discriminate)|]. intros p c q E. cbn in Iw. destruct Iw as [<-|[<-|[<-|[]]]]; destruct p as [|? [|? [|? p]]]; cbn in E; try discriminate; injection E; intros; subst; cbn; tauto. }
    repeat (apply Forall_cons; [apply AW; cbn; tauto|]). constructor.
  - eexists. split; [vm_compute; reflexivity|]. split; vm_compute; reflexivity.
Qed.

(** "ab a" meets those of [C90_spaces]. *)
Example C90_spaces_ex : let s := [97; 98; 32; 97]%N in
  ~ In 60%N [47; 119; 62]%N /\ ~ occurs ct_suffix (normal_text ex_tables ct_normalizer s) /\ none_in ct_offered s /\
  (forall ws, words_of toy_tables PtWhitespaceSplit (normal_text ex_tables ct_normalizer s) ws -> ws <> [] /\ Forall (in_alphabet ct_vocab ct_suffix) ws).
Proof.
  cbn zeta. split; [cbn; intuition discriminate|]. change (normal_text ex_tables ct_normalizer [97; 98; 32; 97]%N) with [97; 98; 32; 97]%N. split; [|split; [apply ct_free; cbn; intuition discriminate|]].
  - intros (a & b & E). assert (X : In 60%N [97; 98; 32; 97]%N) by (rewrite E; apply in_or_app; right; left; reflexivity). cbn in X. intuition discriminate.
  - intros ws W. apply spaces_words in W. cbn in W. subst ws. split; [discriminate|].
    assert (AW : forall w, In w [[97; 98]; [97]]%N -> in_alphabet ct_vocab ct_suffix w).
    { intros w Iw. split; [cbn in Iw; intuition (subst; discriminate)|]. intros p c q E. cbn in Iw. destruct Iw as [<-|[<-|[]]]; destruct p as [|? [|? [|? p]]]; cbn in E; try discriminate; injection E; intros; subst; cbn; tauto. }
    repeat (apply Forall_cons; [apply AW; cbn; tauto|]). constructor.
Qed.

(** WordLevel: <unk> | ab | . *)
Definition ct_wl : wordlevel := mkWL [([60; 117; 110; 107; 62], 0); ([97; 98], 1); ([46], 2)]%N [60; 117; 110; 107; 62]%N.
Example C91_ex :
  word_tokenizer (ct_tokenizer (wl_vocabulary ct_wl) (wl_model ct_wl) PtBert) (wl_vocabulary ct_wl) ex_tables ct_normalizer toy_tables PtBert ct_offered /\
  sound_wordlevel ct_wl /\ is_ws toy_tables 32%N = true /\ text ct_text /\ none_in ct_offered ct_text /\
  (forall ws, words_of toy_tables PtBert (normal_text ex_tables ct_normalizer ct_text) ws -> Forall (fun w => w <> []) ws) /\
  exists e, encode (ct_tokenizer (wl_vocabulary ct_wl) (wl_model ct_wl) PtBert) OByte (Single (Raw ct_text)) false = Ok e /\ ids e = [1; 0; 2]%N /\
    AddedModel.decode (E := unit) (wl_vocabulary ct_wl) (ct_added (wl_vocabulary ct_wl)) None false (ids e) = Ok [97; 98; 32; 60; 117; 110; 107; 62; 32; 46]%N.
Proof.
  split; [apply ct_is; [exact Logic.I|exists 1; vm_compute; reflexivity]|]. split.
  - split; [cbn; repeat constructor; cbn; intuition discriminate|]. split; [cbn; repeat constructor; cbn; intuition discriminate|]. split; [|discriminate].
    intros t i H. cbn [wl_vocabulary mv_token_to_id mv_size] in *. unfold wl_token_to_id in H. apply (aget_In str_eqb str_eqb_eq) in H. cbn in H. cbn. repeat (destruct H as [H|H]; [injection H as <- <-; lia|]). destruct H.
  - split; [reflexivity|]. split; [repeat constructor|]. split; [apply ct_free; cbn; intuition discriminate|]. split; [intros ws W; apply bert_words in W; eapply Forall_impl; [|exact W]; intros w [X _]; exact X|].
    eexists. split; [vm_compute; reflexivity|]. split; vm_compute; reflexivity.
Qed.

(** ** Findings *)
(** A text of blanks has no tokens, and the decoder panics on none. *)
Theorem C90_blank_refuted : exists t m pop draws vocab merges sf TN nz TP offered s e,
  word_tokenizer t (bpe_vocabulary m) TN nz TP PtBert offered /\ tz_model t = bpe_model pop m draws /\ char_bpe vocab merges sf m /\
  encode t OByte (Single (Raw s)) false = Ok e /\ s = [32; 32]%N /\
  AddedModel.decode (bpe_vocabulary m) (tz_added t) (Some (DecodersModel.decode_tokens (DBpe sf))) false (ids e) = Panic.
Proof.
  exists (ct_tokenizer (bpe_vocabulary ct_bpe) (bpe_model pop_min ct_bpe ct_draws) PtBert), ct_bpe, pop_min, ct_draws, ct_vocab, ct_merges, ct_suffix, ex_tables, ct_normalizer, toy_tables, ct_offered, [32; 32]%N. eexists.
  split; [apply ct_is; [exact Logic.I|exists 1; vm_compute; reflexivity]|]. split; [reflexivity|]. split; [exact ct_sound|]. split; [vm_compute; reflexivity|]. split; [reflexivity|vm_compute; reflexivity].
Qed.

(** A character that is not in the alphabet at the end of a word takes the end of the
    word with it: "z a" is shown as "<unk>a". *)
Theorem C90_unknown_refuted : exists t m pop draws vocab merges sf TN nz TP offered s e,
  word_tokenizer t (bpe_vocabulary m) TN nz TP PtBert offered /\ tz_model t = bpe_model pop m draws /\ char_bpe vocab merges sf m /\
  encode t OByte (Single (Raw s)) false = Ok e /\ s = [122; 32; 97]%N /\
  AddedModel.decode (bpe_vocabulary m) (tz_added t) (Some (DecodersModel.decode_tokens (DBpe sf))) false (ids e) = Ok [60; 117; 110; 107; 62; 97]%N.
Proof.
  exists (ct_tokenizer (bpe_vocabulary ct_bpe) (bpe_model pop_min ct_bpe ct_draws) PtBert), ct_bpe, pop_min, ct_draws, ct_vocab, ct_merges, ct_suffix, ex_tables, ct_normalizer, toy_tables, ct_offered, [122; 32; 97]%N. eexists.
  split; [apply ct_is; [exact Logic.I|exists 1; vm_compute; reflexivity]|]. split; [reflexivity|]. split; [exact ct_sound|]. split; [vm_compute; reflexivity|]. split; [reflexivity|vm_compute; reflexivity].
Qed.

(** Split at white space only, a word with the suffix inside comes apart: "a</w>b" is
    shown as "a b". *)
Theorem C90_suffix_refuted : exists t m pop draws vocab merges sf TN nz TP offered s e,
  word_tokenizer t (bpe_vocabulary m) TN nz TP PtWhitespaceSplit offered /\ tz_model t = bpe_model pop m draws /\ char_bpe vocab merges sf m /\ in_alphabet vocab sf s /\
  encode t OByte (Single (Raw s)) false = Ok e /\ s = [97; 60; 47; 119; 62; 98]%N /\
  AddedModel.decode (bpe_vocabulary m) (tz_added t) (Some (DecodersModel.decode_tokens (DBpe sf))) false (ids e) = Ok [97; 32; 98]%N.
Proof.
  exists (ct_tokenizer (bpe_vocabulary ct_bpe) (bpe_model pop_min ct_bpe ct_draws) PtWhitespaceSplit), ct_bpe, pop_min, ct_draws, ct_vocab, ct_merges, ct_suffix, ex_tables, ct_normalizer, toy_tables, ct_offered, [97; 60; 47; 119; 62; 98]%N. eexists.
  split; [apply ct_is; [exact Logic.I|exists 1; vm_compute; reflexivity]|]. split; [reflexivity|]. split; [exact ct_sound|]. split.
  - split; [discriminate|]. intros p c q E. destruct p as [|? [|? [|? [|? [|? [|? p]]]]]]; cbn in E; try (injection E; intros; subst; cbn; tauto). destruct p; discriminate.
  - split; [vm_compute; reflexivity|]. split; [reflexivity|vm_compute; reflexivity].
Qed.
