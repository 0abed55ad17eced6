(** C89: tokenizers that cut texts into words, with WordPiece. *)
From Verif Require Import Base ListFacts StrBytes Utf8 AMap EncodingModel EncodingSpec NormModel NormalizersModel NormalizersSpec PatternModel PatternSpec
  PreTokenizersModel PreTokenizersSpec ProcessorsModel ProcessorsSpec DecodersModel DecodersSpec AddedModel AddedSpec AddedProofs AddedProofs2 AddedProps
  TokenizerModel EndToEndProofs PreTokModel RoundTripModel RoundTripSpec RoundTripProofs WordPieceModel WordPieceSpec SpmTripModel SpmTripSpec
  PreTokenizersProps NormalizersProps WordTripModel WordTripSpec WordTripProofs.

(** Whatever the normalizer and the pre-tokenizer: a text is decoded to the words the
    pre-tokenizer made of the normalised text, with single spaces between them and the
    unknown token for the words that cannot be spelt. *)
Theorem C89_words : forall t m TN nz TP p offered s ot add,
  word_tokenizer t (wp_vocabulary m) TN nz TP p offered -> tz_model t = wp_model m -> sound_wordpiece m ->
  text s -> none_in offered s ->
  (forall ws, words_of TP p (normal_text TN nz s) ws -> Forall (fun w => w <> [] /\ not_continued (w_prefix m) w) ws) ->
  tz_post t = None -> tz_truncation t = None -> tz_padding t = None ->
  exists e ws os, encode t ot (Single (Raw s)) add = Ok e /\
    words_of TP p (normal_text TN nz s) ws /\ told m false ws os /\
    AddedModel.decode (wp_vocabulary m) (tz_added t) (Some (DecodersModel.decode_tokens (DWordPiece (w_prefix m) false))) false (ids e) = Ok (join_spaces os).
Proof.
  intros t m TN nz TP p offered s ot add WT TM SW TX NI NW Ho Ht Hp.
  destruct (wordpiece_ids t m TN nz TP p offered s 0%N ot WT TM SW Ht TX NI) as (e & ws & tss & E & W & TW & FM & F & I & N).
  { intros ws W. eapply Forall_impl; [|exact (NW ws W)]. intros w [X _]. exact X. }
  destruct (tell_words m (tz_added t) false (w_prefix m) false ws tss eq_refl) as (os & TD & DE); auto; try discriminate.
  { apply SW. }
  { eapply Forall_impl; [|exact (NW ws W)]. intros w [_ X]. split; [exact X|discriminate]. }
  exists e, ws, os. split; [|split; [exact W|split; [exact TD|]]].
  - cbn [encode encode_single]. rewrite E. cbn [other bind]. unfold post_process, truncate_step, process_step, pad_step. rewrite Ho, Ht, Hp. reflexivity.
  - rewrite I, DE, sentence_plain. reflexivity.
Qed.

(** With the pre-tokenizer of BERT, and a prefix such as "##", nothing has to be asked
    of the text: cleaned up or not, it is decoded to its words, set as a sentence. *)
Theorem C89_bert : forall t m TN nz TP offered s ot add cleanup c d y,
  word_tokenizer t (wp_vocabulary m) TN nz TP PtBert offered -> tz_model t = wp_model m -> sound_wordpiece m ->
  w_prefix m = c :: d :: y -> punctuation TP c -> is_ws TP 32%N = true -> tidy (w_unk m) ->
  text s -> none_in offered s ->
  tz_post t = None -> tz_truncation t = None -> tz_padding t = None ->
  exists e ws os, encode t ot (Single (Raw s)) add = Ok e /\
    words_of TP PtBert (normal_text TN nz s) ws /\ told m false ws os /\
    AddedModel.decode (wp_vocabulary m) (tz_added t) (Some (DecodersModel.decode_tokens (DWordPiece (w_prefix m) cleanup))) false (ids e) = Ok (sentence cleanup os).
Proof.
  intros t m TN nz TP offered s ot add cleanup c d y WT TM SW PX PC W32 TD TX NI Ho Ht Hp.
  destruct (wordpiece_ids t m TN nz TP PtBert offered s 0%N ot WT TM SW Ht TX NI) as (e & ws & tss & E & W & TW & FM & F & I & N).
  { intros ws W. apply bert_words in W. eapply Forall_impl; [|exact W]. intros w [X _]. exact X. }
  pose proof (bert_words _ _ _ W) as BW.
  destruct (tell_words m (tz_added t) false (w_prefix m) cleanup ws tss eq_refl) as (os & TO & DE); auto; try discriminate.
  { apply SW. }
  { eapply Forall_impl; [|exact BW]. intros w B. split; [rewrite PX; eapply bert_not_continued; eauto|intros _; eapply bert_neat; eauto]. }
  exists e, ws, os. split; [|split; [exact W|split; [exact TO|]]].
  - cbn [encode encode_single]. rewrite E. cbn [other bind]. unfold post_process, truncate_step, process_step, pad_step. rewrite Ho, Ht, Hp. reflexivity.
  - rewrite I. exact DE.
Qed.

(** As BERT tokenizers are used: [CLS] and [SEP] are put around the ids, and special
    tokens are skipped.  They go, and so do the unknown words when the unknown token
    is special (as [BertWordPieceTokenizer] makes it). *)
Theorem C89_bert_skip : forall t m TN nz TP offered s ot cleanup c d y p added,
  word_tokenizer t (wp_vocabulary m) TN nz TP PtBert offered -> tz_model t = wp_model m -> sound_wordpiece m ->
  w_prefix m = c :: d :: y -> punctuation TP c -> is_ws TP 32%N = true -> tidy (w_unk m) ->
  Forall (fun tk => at_special tk = true -> bracketed TP (w_prefix m) (at_content tk)) offered ->
  text s -> none_in offered s ->
  ot <> ONone -> tz_post t = Some p -> adds_around p added -> Forall (special_id (wp_vocabulary m) (tz_added t)) added ->
  tz_truncation t = None -> tz_padding t = None ->
  exists e ws os, encode t ot (Single (Raw s)) true = Ok e /\
    words_of TP PtBert (normal_text TN nz s) ws /\ told m (av_is_special (tz_added t) (w_unk m)) ws os /\
    AddedModel.decode (wp_vocabulary m) (tz_added t) (Some (DecodersModel.decode_tokens (DWordPiece (w_prefix m) cleanup))) true (ids e) = Ok (sentence cleanup os).
Proof.
  intros t m TN nz TP offered s ot cleanup c d y pr added WT TM SW PX PC W32 TD SB TX NI Hot Ho AA SPC Ht Hp.
  destruct (wordpiece_ids t m TN nz TP PtBert offered s 0%N ot WT TM SW Ht TX NI) as (e & ws & tss & E & W & TW & FM & F & I & N).
  { intros ws W. apply bert_words in W. eapply Forall_impl; [|exact W]. intros w [X _]. exact X. }
  pose proof (bert_words _ _ _ W) as BW.
  destruct (tell_words m (tz_added t) true (w_prefix m) cleanup ws tss eq_refl) as (os & TO & DE); auto; try discriminate.
  { apply SW. }
  { eapply Forall_impl; [|exact BW]. intros w B. split; [rewrite PX; eapply bert_not_continued; eauto|intros _; eapply bert_neat; eauto]. }
  { intros _ w x xs Iw EW Nx. apply Forall_forall. intros v Iv. rewrite Forall_forall in BW. specialize (BW w Iw).
    destruct (av_is_special (tz_added t) v) eqn:ES; [|reflexivity]. exfalso. unfold av_is_special in ES. apply str_mem_In in ES.
    destruct WT as (_ & _ & (build & NF & taken & AH) & _). destruct (special_history _ _ _ _ _ _ AH) as (_ & SH & _). destruct (SH _ ES) as (tk & I1 & I2 & I3 & _).
    rewrite Forall_forall in SB. specialize (SB tk I1 I2). rewrite I3 in SB. exact (bert_pieces_ordinary _ _ _ _ _ _ BW EW Nx Iv SB). }
  assert (FR : fresh 0 e).
  { destruct (encode_single_plain t (Raw s) 0 ot e Hot E) as [P O]. split; [exact P|]. rewrite O. constructor. }
  destruct (around_decoded (wp_vocabulary m) (tz_added t) (tz_blank t) pr added e AA FR SPC) as (out & EO & ED).
  exists out, ws, os. split; [|split; [exact W|split; [exact TO|]]].
  - cbn [encode encode_single]. rewrite E. cbn [other bind]. unfold post_process, truncate_step, process_step, pad_step. rewrite Ht, Ho, Hp. cbn [bind fst snd]. rewrite EO. reflexivity.
  - unfold AddedModel.decode in *. rewrite ED, I. exact DE.
Qed.

(** The decoded text is encoded to the same ids, if all words could be spelt and the
    normalizer leaves the decoded text as it is: the words are found again whatever
    spaces decoding put or left out. *)
Theorem C89_bert_again : forall t m TN nz TP offered s ot add cleanup c d y,
  word_tokenizer t (wp_vocabulary m) TN nz TP PtBert offered -> tz_model t = wp_model m -> sound_wordpiece m ->
  w_prefix m = c :: d :: y -> punctuation TP c -> is_ws TP 32%N = true -> tidy (w_unk m) ->
  text s -> none_in offered s ->
  tz_post t = None -> tz_truncation t = None -> tz_padding t = None ->
  exists e ws out, encode t ot (Single (Raw s)) add = Ok e /\ words_of TP PtBert (normal_text TN nz s) ws /\
    AddedModel.decode (wp_vocabulary m) (tz_added t) (Some (DecodersModel.decode_tokens (DWordPiece (w_prefix m) cleanup))) false (ids e) = Ok out /\
    (Forall (spelt m) ws -> normal_text TN nz out = out -> none_in offered out ->
     exists e', encode t ot (Single (Raw out)) add = Ok e' /\ ids e' = ids e).
Proof.
  intros t m TN nz TP offered s ot add cleanup c d y WT TM SW PX PC W32 TD TX NI Ho Ht Hp.
  assert (NE : forall s ws, words_of TP PtBert (normal_text TN nz s) ws -> Forall (fun w => w <> []) ws).
  { intros s' ws W. apply bert_words in W. eapply Forall_impl; [|exact W]. intros w [X _]. exact X. }
  destruct (wordpiece_ids t m TN nz TP PtBert offered s 0%N ot WT TM SW Ht TX NI (NE s)) as (e & ws & tss & E & W & TW & FM & F & I & N).
  pose proof (bert_words _ _ _ W) as BW.
  destruct (tell_words m (tz_added t) false (w_prefix m) cleanup ws tss eq_refl) as (os & TO & DE); auto; try discriminate.
  { apply SW. }
  { eapply Forall_impl; [|exact BW]. intros w B. split; [rewrite PX; eapply bert_not_continued; eauto|intros _; eapply bert_neat; eauto]. }
  exists e, ws, (sentence cleanup os). split; [|split; [exact W|split; [rewrite I; exact DE|]]].
  - cbn [encode encode_single]. rewrite E. cbn [other bind]. unfold post_process, truncate_step, process_step, pad_step. rewrite Ho, Ht, Hp. reflexivity.
  - intros SP NX NI'. apply (told_all m _ _ _ SP) in TO. subst os.
    destruct (wordpiece_ids t m TN nz TP PtBert offered (sentence cleanup ws) 0%N ot WT TM SW Ht (sentence_text cleanup ws TW) NI' (NE _)) as (e' & ws' & tss' & E' & W' & _ & FM' & _ & I' & _).
    rewrite NX in W'. destruct (punctuation_decided TP) as (pn & HP). apply (words_read TP pn HP) in W'. rewrite (read_sentence TP pn HP cleanup W32 ws BW) in W'. subst ws'.
    exists e'. split.
    + cbn [encode encode_single]. rewrite E'. cbn [other bind]. unfold post_process, truncate_step, process_step, pad_step. rewrite Ho, Ht, Hp. reflexivity.
    + rewrite I', I, (same_tokens m ws tss tss' FM FM'). reflexivity.
Qed.

(** ** Examples *)
(** [U] | [C] | [S] | un | ##a | ##b | , | . | ' | t *)
Definition wt_wp : wordpiece :=
  mkWP [([91; 85; 93], 0); ([91; 67; 93], 1); ([91; 83; 93], 2); ([117; 110], 3); ([35; 35; 97], 4); ([35; 35; 98], 5); ([44], 6); ([46], 7); ([39], 8); ([116], 9)]%N
       [91; 85; 93]%N [35; 35]%N 100.
Definition wt_special (x : str) : added_token := mkAdded x false false false false true.
Definition wt_offered : list added_token := [wt_special [91; 85; 93]%N; wt_special [91; 67; 93]%N; wt_special [91; 83; 93]%N].
Definition wt_all : list (str * N) -> bool := fun _ => true.
Definition wt_added : added_vocab := fst (add_tokens wt_all (wp_vocabulary wt_wp) None wt_offered av_new).
Definition wt_bert : normalizer := NBert true true None true.
Definition wt_tokenizer (post : option processor) : tokenizer :=
  mkTokenizer (fun c => N.eqb c 32) (fun _ => false) (fun c => N.eqb c 32) (run_normalizer ex_tables wt_bert) (Some (pre_tokenize toy_tables PtBert))
    (wp_model wt_wp) post wt_added None None.

Lemma wt_is post : word_tokenizer (wt_tokenizer post) (wp_vocabulary wt_wp) ex_tables wt_bert toy_tables PtBert wt_offered.
Proof.
  split; [split; [exact C68_tables_example|split; [exact Logic.I|reflexivity]]|]. split; [split; [exact toy_sane|split; [exact Logic.I|reflexivity]]|]. split; [|repeat constructor].
  exists wt_all, no_norm. eexists. cbn [wt_tokenizer tz_added]. unfold wt_added.
  destruct (add_tokens wt_all (wp_vocabulary wt_wp) None wt_offered av_new) as [av r] eqn:A. cbn [fst].
  assert (R : exists n, r = Some n). { exists 3. change r with (snd (av, r)). rewrite <- A. vm_compute. reflexivity. } destruct R as (n & ->).
  apply (ah_add wt_all (wp_vocabulary wt_wp) no_norm av_new [] [] None wt_offered av n); [apply ah_new|intros f H; discriminate H|exact A].
Qed.
Lemma wt_sound : sound_wordpiece wt_wp.
Proof.
  split; [cbn; repeat constructor; cbn; intuition discriminate|]. split; [cbn; repeat constructor; cbn; intuition discriminate|]. split; [|split; [discriminate|intros y; discriminate]].
  intros t i H. cbn [wp_vocabulary mv_token_to_id mv_size] in *. unfold wp_token_to_id in H. apply (aget_In str_eqb str_eqb_eq) in H. cbn in H. cbn.
  repeat (destruct H as [H|H]; [injection H as <- <-; lia|]). destruct H.
Qed.
Lemma wt_tidy : tidy (w_unk wt_wp).
Proof.
  unfold tidy, clean_rules. repeat (apply Forall_cons; [cbn [fst]; intros (u & v & E); destruct u as [|? [|? [|? [|? [|? u]]]]]; cbn in E; discriminate E|]). constructor.
Qed.

(** "UnAb, Un't z." *)
Definition wt_text : str := [85; 110; 65; 98; 44; 32; 85; 110; 39; 116; 32; 122; 46]%N.
Definition wt_decode (cleanup skip : bool) (l : list N) : res unit str :=
  AddedModel.decode (wp_vocabulary wt_wp) wt_added (Some (DecodersModel.decode_tokens (DWordPiece (w_prefix wt_wp) cleanup))) skip l.
Lemma wt_free : none_in wt_offered wt_text.
Proof.
  assert (O : forall u, In 91%N u -> ~ occurs u wt_text).
  { intros u I (a & b & E). assert (X : In 91%N wt_text) by (rewrite E; apply in_or_app; right; apply in_or_app; left; exact I).
    cbn in X. repeat (destruct X as [X|X]; [discriminate|]). exact X. }
  repeat (constructor; [right; apply O; left; reflexivity|]). constructor.
Qed.

(** It meets the conditions of [C89_bert], and is shown as "unab, un ' t [U]." *)
Example C89_bert_ex :
  word_tokenizer (wt_tokenizer None) (wp_vocabulary wt_wp) ex_tables wt_bert toy_tables PtBert wt_offered /\ sound_wordpiece wt_wp /\
  punctuation toy_tables 35%N /\ is_ws toy_tables 32%N = true /\ tidy (w_unk wt_wp) /\ text wt_text /\ none_in wt_offered wt_text /\
  exists e, encode (wt_tokenizer None) OByte (Single (Raw wt_text)) false = Ok e /\ ids e = [3; 4; 5; 6; 3; 8; 9; 0; 7]%N /\
    wt_decode true false (ids e) = Ok [117; 110; 97; 98; 44; 32; 117; 110; 32; 39; 32; 116; 32; 91; 85; 93; 46]%N.
Proof.
  split; [apply wt_is|]. split; [exact wt_sound|]. split; [left; cbn; tauto|]. split; [reflexivity|]. split; [exact wt_tidy|]. split; [repeat constructor|]. split; [exact wt_free|].
  eexists. split; [vm_compute; reflexivity|]. split; vm_compute; reflexivity.
Qed.

(** It meets those of [C89_words] too: the words of the pre-tokenizer of BERT are not
    empty and do not go on with "##". *)
Example C89_words_ex : forall ws, words_of toy_tables PtBert (normal_text ex_tables wt_bert wt_text) ws ->
  Forall (fun w => w <> [] /\ not_continued (w_prefix wt_wp) w) ws.
Proof.
  intros ws W. pose proof (bert_words _ _ _ W) as B. eapply Forall_impl; [|exact B]. intros w X. split; [apply X|]. eapply bert_not_continued; [exact X|]. left. cbn. tauto.
Qed.

(** And those of [C89_bert_skip]: without the special tokens, "unab, un ' t." *)
Definition wt_post : processor := PBert ([91; 83; 93]%N, 2%N) ([91; 67; 93]%N, 1%N).
Example C89_skip_ex :
  adds_around wt_post [1; 2]%N /\ Forall (special_id (wp_vocabulary wt_wp) wt_added) [1; 2]%N /\
  Forall (fun tk => at_special tk = true -> bracketed toy_tables (w_prefix wt_wp) (at_content tk)) wt_offered /\
  av_is_special wt_added (w_unk wt_wp) = true /\
  exists e, encode (wt_tokenizer (Some wt_post)) OByte (Single (Raw wt_text)) true = Ok e /\ ids e = [1; 3; 4; 5; 6; 3; 8; 9; 0; 7; 2]%N /\
    wt_decode true true (ids e) = Ok [117; 110; 97; 98; 44; 32; 117; 110; 32; 39; 32; 116; 46]%N.
Proof.
  split; [apply (aa_bert ([91; 83; 93]%N, 2%N) ([91; 67; 93]%N, 1%N))|]. split; [repeat constructor; (eexists; split; [vm_compute; reflexivity|vm_compute; reflexivity])|]. split; [|split; [vm_compute; reflexivity|]].
  - repeat (constructor; [intros _; split; [do 3 eexists; split; [reflexivity|left; cbn; tauto]|intros y; discriminate]|]). constructor.
  - eexists. split; [vm_compute; reflexivity|]. split; vm_compute; reflexivity.
Qed.

(** Read again, "unab, un ' t." has the same ids. *)
Example C89_again_ex :
  let out := [117; 110; 97; 98; 44; 32; 117; 110; 32; 39; 32; 116; 46]%N in
  normal_text ex_tables wt_bert out = out /\
  exists e, encode (wt_tokenizer None) OByte (Single (Raw out)) false = Ok e /\ ids e = [3; 4; 5; 6; 3; 8; 9; 7]%N /\ wt_decode true false (ids e) = Ok out.
Proof. split; [vm_compute; reflexivity|]. eexists. split; [vm_compute; reflexivity|]. split; vm_compute; reflexivity. Qed.

(** ** Findings *)
(** The cleanup has rules for contractions, but works on one token at a time, and the
    pre-tokenizer of BERT sets the apostrophe apart: they never apply.  "un't" comes
    back as "un ' t", and so it is for every such word. *)
Theorem C89_contraction_refuted : exists t m TN nz TP offered s e out,
  word_tokenizer t (wp_vocabulary m) TN nz TP PtBert offered /\ tz_model t = wp_model m /\ sound_wordpiece m /\ none_in offered s /\
  encode t OByte (Single (Raw s)) false = Ok e /\
  AddedModel.decode (wp_vocabulary m) (tz_added t) (Some (DecodersModel.decode_tokens (DWordPiece (w_prefix m) true))) false (ids e) = Ok out /\
  s = [117; 110; 39; 116]%N /\ out = [117; 110; 32; 39; 32; 116]%N.
Proof.
  exists (wt_tokenizer None), wt_wp, ex_tables, wt_bert, toy_tables, wt_offered, [117; 110; 39; 116]%N. eexists. eexists.
  split; [apply wt_is|]. split; [reflexivity|]. split; [exact wt_sound|]. split.
  - assert (O : forall u, In 91%N u -> ~ occurs u [117; 110; 39; 116]%N).
    { intros u I (a & b & E). assert (X : In 91%N [117; 110; 39; 116]%N) by (rewrite E; apply in_or_app; right; apply in_or_app; left; exact I). cbn in X. repeat (destruct X as [X|X]; [discriminate|]). exact X. }
    repeat (constructor; [right; apply O; left; reflexivity|]). constructor.
  - split; [vm_compute; reflexivity|]. split; [vm_compute; reflexivity|]. split; reflexivity.
Qed.

(** [BertWordPieceTokenizer(wordpieces_prefix = "@@")] gives the prefix to the decoder
    only (bert_wordpiece.py:29-32, 72); the model keeps "##", and the words come apart. *)
Theorem C89_prefix_refuted : exists t m TN nz TP offered s e,
  word_tokenizer t (wp_vocabulary m) TN nz TP PtBert offered /\ tz_model t = wp_model m /\ sound_wordpiece m /\
  encode t OByte (Single (Raw s)) false = Ok e /\ s = [117; 110; 97; 98]%N /\
  AddedModel.decode (wp_vocabulary m) (tz_added t) (Some (DecodersModel.decode_tokens (DWordPiece [64; 64]%N true))) false (ids e) =
    Ok [117; 110; 32; 35; 35; 97; 32; 35; 35; 98]%N.
Proof.
  exists (wt_tokenizer None), wt_wp, ex_tables, wt_bert, toy_tables, wt_offered, [117; 110; 97; 98]%N. eexists.
  split; [apply wt_is|]. split; [reflexivity|]. split; [exact wt_sound|]. split; [vm_compute; reflexivity|]. split; [reflexivity|vm_compute; reflexivity].
Qed.
