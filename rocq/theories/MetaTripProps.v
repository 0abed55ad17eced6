(** C79: texts cut by Metaspace, with any model that spells the words. *)
From Verif Require Import Base ListFacts StrBytes Utf8 AMap EncodingModel EncodingSpec NormModel BpeWordModel BpeWordSpec BpeModel BpeSpec BpeProps
  ProcessorsModel ProcessorsSpec DecodersModel DecodersSpec AddedModel AddedSpec AddedProofs AddedProofs2 AddedProps UnigramModel UnigramSpec UnigramProps WordPieceModel ModelFilesModel TokenizerFilesModel
  TokenizerModel EndToEndProofs PreTokModel RoundTripModel RoundTripSpec RoundTripProofs SpmTripSpec MetaTripSpec MetaTripProofs.

(** Every text without the mark can be encoded, and the ids are decoded to its
    parts, with the spaces the scheme puts in. *)
Theorem C79_sections : forall t mv rep scheme offered s ot add,
  metaspace_tokenizer t mv rep scheme offered -> model_ok mv -> dense mv ->
  text s -> ~ In rep s -> (forall w, word_of rep s w -> spells mv (tz_model t) w) ->
  tz_post t = None -> tz_truncation t = None -> tz_padding t = None ->
  exists e parts, encode t ot (Single (Raw s)) add = Ok e /\
    concat (map snd parts) = s /\ (forall x, In (true, x) parts -> exists tk, In tk offered /\ at_content tk = x) /\
    AddedModel.decode mv (tz_added t) (Some (DecodersModel.decode_tokens (DMetaspace rep scheme))) false (ids e) = Ok (shown_parts scheme parts).
Proof.
  intros t mv rep scheme offered s ot add MT MO DN TX NR SP Ho Ht Hp.
  destruct (meta_ids t mv rep scheme offered s 0%N ot MT MO DN Ht TX NR SP) as [(e & E) (toks & parts & D & N & CS & AD & DE & _)].
  exists e, parts. split; [|split; [exact CS|split; [exact AD|]]].
  - cbn [encode encode_single]. rewrite E. cbn [other bind]. unfold post_process, truncate_step, process_step, pad_step. rewrite Ho, Ht, Hp. reflexivity.
  - unfold AddedModel.decode. rewrite (D e E), named_tokens by exact N. exact DE.
Qed.

(** A text in which no added token is written comes back, without one leading space
    unless the scheme is [Never]. *)
Theorem C79_round_trip : forall t mv rep scheme offered s ot add,
  metaspace_tokenizer t mv rep scheme offered -> model_ok mv -> dense mv ->
  text s -> ~ In rep s -> none_in offered s -> (forall w, word_of rep s w -> spells mv (tz_model t) w) ->
  tz_post t = None -> tz_truncation t = None -> tz_padding t = None ->
  exists e, encode t ot (Single (Raw s)) add = Ok e /\
    AddedModel.decode mv (tz_added t) (Some (DecodersModel.decode_tokens (DMetaspace rep scheme))) false (ids e) =
    Ok (match scheme with SNever => s | _ => drop_one_space s end).
Proof.
  intros t mv rep scheme offered s ot add MT MO DN TX NR NI SP Ho Ht Hp.
  destruct (meta_ids t mv rep scheme offered s 0%N ot MT MO DN Ht TX NR SP) as [(e & E) (toks & parts & D & N & _ & _ & DE & ON)].
  exists e. split.
  - cbn [encode encode_single]. rewrite E. cbn [other bind]. unfold post_process, truncate_step, process_step, pad_step. rewrite Ho, Ht, Hp. reflexivity.
  - unfold AddedModel.decode. rewrite (D e E), named_tokens by exact N. rewrite DE. destruct (ON NI) as [-> _]. f_equal. destruct s as [|c s]; [destruct scheme; reflexivity|]. cbn [shown_parts flat_map]. rewrite app_nil_r. reflexivity.
Qed.

(** With a post-processor that puts special tokens around the text, decoding without
    the special tokens. *)
Theorem C79_special_skipped : forall t mv rep scheme offered s ot p added,
  metaspace_tokenizer t mv rep scheme offered -> model_ok mv -> dense mv ->
  text s -> ~ In rep s -> none_in offered s -> (forall w, word_of rep s w -> spells mv (tz_model t) w) ->
  Forall (fun tk => at_special tk = true -> ~ In rep (at_content tk)) offered ->
  ot <> ONone -> tz_post t = Some p -> adds_around p added -> Forall (special_id mv (tz_added t)) added ->
  tz_truncation t = None -> tz_padding t = None ->
  exists e, encode t ot (Single (Raw s)) true = Ok e /\
    AddedModel.decode mv (tz_added t) (Some (DecodersModel.decode_tokens (DMetaspace rep scheme))) true (ids e) =
    Ok (match scheme with SNever => s | _ => drop_one_space s end).
Proof.
  intros t mv rep scheme offered s ot pr added MT MO DN TX NR NI SP SM Hot Ho AA SPC Ht Hp.
  destruct (meta_ids t mv rep scheme offered s 0%N ot MT MO DN Ht TX NR SP) as [(e & E) (toks & parts & D & N & _ & _ & DE & ON)].
  destruct (ON NI) as [EP (puts & CC & NV)]. clear ON.
  assert (F : fresh 0 e).
  { destruct (encode_single_plain t (Raw s) 0 ot e Hot E) as [P O]. split; [exact P|]. rewrite O. constructor. }
  destruct (around_decoded mv (tz_added t) (tz_blank t) pr added e AA F SPC) as (out & EO & ED).
  exists out. split.
  - cbn [encode encode_single]. rewrite E. cbn [other bind]. unfold post_process, truncate_step, process_step, pad_step. rewrite Ht, Ho, Hp. cbn [bind fst snd]. rewrite EO. reflexivity.
  - unfold AddedModel.decode. rewrite ED, ordinary_kept.
    + rewrite (D e E), named_tokens by exact N. rewrite DE, EP. f_equal. destruct s as [|c s]; [destruct scheme; reflexivity|]. cbn [shown_parts flat_map]. rewrite app_nil_r. reflexivity.
    + rewrite (D e E). apply Forall_map. apply Forall_forall. intros x Hx (c & Hc & Hs). rewrite Forall_forall in N, NV. specialize (N x Hx). specialize (NV x Hx). unfold token_named in N. rewrite N in Hc. injection Hc as <-.
      unfold av_is_special in Hs. apply str_mem_In in Hs. destruct MT as (_ & _ & (build & taken & AH) & _). destruct (special_history _ _ _ _ _ _ AH) as (_ & SH & _). destruct (SH _ Hs) as (tk & I1 & I2 & I3 & I4).
      unfold none_in in NI. rewrite Forall_forall in SM, NI. specialize (SM tk I1 I2). specialize (NI tk I1). rewrite I3 in *. destruct NI as [NI|NI]; [congruence|]. apply NI.
      apply List.in_split in Hx. destruct Hx as (l1 & l2 & ->). rewrite map_app, concat_app in CC. cbn [map concat] in CC.
      assert (WS : word_of rep ([] ++ s ++ []) (t_value x)) by (eapply word_part; [symmetry; exact CC|exact NV]). rewrite app_nil_r in WS. cbn [app] in WS.
      eapply unmarked_part; [exact WS|exact SM|exact NV|]. exists [], []. rewrite app_nil_r. reflexivity.
Qed.

(** ** Unigram *)
(** A Unigram model (T5, XLM-R, ALBERT): the characters of the text and the mark
    are tokens, and the unknown token is not written in the text. *)
Theorem C79_unigram : forall W (A : arith W) ok m t rep scheme offered s ot add,
  made A m -> scores_ok A ok m -> NoDup (map fst (u_vocab m)) ->
  tz_model t = (fun w => boxed (uni_tokenize A m None w)) ->
  metaspace_tokenizer t (model_vocabulary (MUnigram m)) rep scheme offered ->
  text s -> ~ In rep s -> none_in offered s ->
  In [rep] (map fst (u_vocab m)) -> (forall c, In c s -> c <> 32%N -> In [c] (map fst (u_vocab m))) ->
  (forall k u, u_unk m = Some k -> uni_id_to_token m k = Some u -> ~ In rep u /\ ~ occurs u s) ->
  tz_post t = None -> tz_truncation t = None -> tz_padding t = None ->
  exists e, encode t ot (Single (Raw s)) add = Ok e /\
    AddedModel.decode (model_vocabulary (MUnigram m)) (tz_added t) (Some (DecodersModel.decode_tokens (DMetaspace rep scheme))) false (ids e) =
    Ok (match scheme with SNever => s | _ => drop_one_space s end).
Proof.
  intros W A ok m t rep scheme offered s ot add MD SO ND TM MT TX NR NI KR KS NU Ho Ht Hp. destruct (uni_model_ok A m MD ND) as [MO DN].
  apply C79_round_trip with (offered := offered); auto. intros w HW. rewrite TM. destruct MT as ((RS & _) & _).
  apply (uni_spells A ok); auto.
  - apply Forall_forall. intros c Hc. destruct (word_chars _ _ _ _ HW Hc) as [->|[I _]]; [exact RS|]. unfold text in TX. rewrite Forall_forall in TX. apply TX. exact I.
  - intros c Hc. destruct (word_chars _ _ _ _ HW Hc) as [->|[I N32]]; [exact KR|apply KS; assumption].
  - intros k u U1 U2 O. destruct (NU k u U1 U2) as [N1 N2]. apply N2. eapply unmarked_part; [exact HW|exact N1| |exact O].
    intros ->. apply N2. exists [], s. reflexivity.
Qed.

(** ** BPE *)
Theorem C79_bpe : forall pop vocab merges m draws t rep scheme offered s ot add,
  heap_ok pop -> built vocab merges None m -> b_suffix m = None -> NoDup (map snd vocab) -> ~ In [] (map fst vocab) -> dense (bpe_vocabulary m) ->
  tz_model t = bpe_model pop m draws ->
  metaspace_tokenizer t (bpe_vocabulary m) rep scheme offered ->
  text s -> ~ In rep s -> none_in offered s ->
  In [rep] (map fst vocab) -> (forall c, In c s -> c <> 32%N -> In [c] (map fst vocab)) ->
  tz_post t = None -> tz_truncation t = None -> tz_padding t = None ->
  exists e, encode t ot (Single (Raw s)) add = Ok e /\
    AddedModel.decode (bpe_vocabulary m) (tz_added t) (Some (DecodersModel.decode_tokens (DMetaspace rep scheme))) false (ids e) =
    Ok (match scheme with SNever => s | _ => drop_one_space s end).
Proof.
  intros pop vocab merges m draws t rep scheme offered s ot add HP BT NS ND NN DN TM MT TX NR NI KR KS Ho Ht Hp.
  apply C79_round_trip with (offered := offered); auto; [eapply bpe_model_ok; eauto|]. intros w HW. rewrite TM. eapply bpe_spells; eauto.
  intros c Hc. destruct (word_chars _ _ _ _ HW Hc) as [->|[I N32]]; [exact KR|apply KS; assumption].
Qed.

(** ** Examples *)
Definition mt_mark : char := 9601%N.
(** <unk> | mark | a | b | mark a | ab *)
Definition mt_vocab : list (str * Z) :=
  [([60; 117; 62], 0%Z); ([mt_mark], (-3)%Z); ([97], (-2)%Z); ([98], (-2)%Z); ([mt_mark; 97], (-3)%Z); ([97; 98], (-5)%Z)]%N.
Definition mt_uni : unigram Z :=
  match uni_from z_arith mt_vocab (Some 0%N) false with Ok m => m | _ => mkUni [] [] TrieModel.tnode0 0%Z None 0%N 0%N true false end.
Definition mt_mv : model_vocab := model_vocabulary (MUnigram mt_uni).
Definition mt_sep : added_token := mkAdded [60; 115; 62]%N false false false false true.
Definition mt_all : list (str * N) -> bool := fun _ => true.
Definition mt_added : added_vocab := fst (add_tokens mt_all mt_mv None [mt_sep] av_new).
Definition mt_tokenizer (scheme : prepend_scheme) (post : option processor) : tokenizer :=
  mkTokenizer (fun c => N.eqb c 32) (fun _ => false) (fun c => N.eqb c 32) (fun ns => ns) (Some (metaspace_pre_tokenize mt_mark scheme true))
    (fun w => boxed (uni_tokenize z_arith mt_uni None w)) post mt_added None None.

Lemma mt_made : made z_arith mt_uni.
Proof. exists mt_vocab, (Some 0%N), false. eexists. eexists. split; [reflexivity|]. split; [repeat constructor|]. reflexivity. Qed.
Lemma mt_is scheme post : metaspace_tokenizer (mt_tokenizer scheme post) mt_mv mt_mark scheme [mt_sep].
Proof.
  split; [split; [reflexivity|discriminate]|]. split; [split; reflexivity|]. split; [|repeat constructor].
  exists mt_all. eexists. cbn [mt_tokenizer tz_added]. unfold mt_added.
  destruct (add_tokens mt_all mt_mv None [mt_sep] av_new) as [av r] eqn:A. cbn [fst].
  assert (R : exists n, r = Some n). { exists 1. change r with (snd (av, r)). rewrite <- A. vm_compute. reflexivity. } destruct R as (n & ->).
  apply (ah_add mt_all mt_mv no_norm av_new [] [] None [mt_sep] av n); [apply ah_new|intros f H; discriminate H|exact A].
Qed.

(** "ab  ba" is a text of [C79_unigram]. *)
Definition mt_text : str := [97; 98; 32; 32; 98; 97]%N.
Example C79_ex :
  made z_arith mt_uni /\ scores_ok z_arith (fun _ => True) mt_uni /\ NoDup (map fst (u_vocab mt_uni)) /\
  metaspace_tokenizer (mt_tokenizer SAlways None) mt_mv mt_mark SAlways [mt_sep] /\
  text mt_text /\ ~ In mt_mark mt_text /\ none_in [mt_sep] mt_text /\
  In [mt_mark] (map fst (u_vocab mt_uni)) /\ (forall c, In c mt_text -> c <> 32%N -> In [c] (map fst (u_vocab mt_uni))) /\
  (forall k u, u_unk mt_uni = Some k -> uni_id_to_token mt_uni k = Some u -> ~ In mt_mark u /\ ~ occurs u mt_text) /\
  exists e, encode (mt_tokenizer SAlways None) OChar (Single (Raw mt_text)) false = Ok e /\ ids e = [4; 3; 1; 1; 3; 2]%N.
Proof.
  assert (V : map fst (u_vocab mt_uni) = map fst mt_vocab) by reflexivity.
  assert (O : forall u, In 60%N u -> ~ occurs u mt_text).
  { intros u I (a & b & E). assert (X : In 60%N mt_text) by (rewrite E; apply in_or_app; right; apply in_or_app; left; exact I).
    cbn in X. repeat (destruct X as [X|X]; [discriminate|]). exact X. }
  split; [exact mt_made|]. split; [split; [exact z_laws|split; intros; exact I]|].
  split; [rewrite V; cbn; repeat constructor; cbn; intuition discriminate|]. split; [apply mt_is|]. split; [repeat constructor|].
  split; [cbn; intuition discriminate|]. split; [constructor; [right; apply O; left; reflexivity|constructor]|].
  split; [rewrite V; cbn; auto|]. split; [|split].
  - rewrite V. intros c Hc N32. cbn in Hc. cbn. intuition congruence.
  - intros k u K U. injection K as <-. vm_compute in U. injection U as <-. split; [cbn; intuition discriminate|]. apply O. left. reflexivity.
  - eexists. split; vm_compute; reflexivity.
Qed.

(** "<s>" in front of the text. *)
Definition mt_builder : template_builder :=
  mkBuilder (Some [PSpecial [60; 115; 62]%N 0; PSeq SeqA 0]) (Some [PSeq SeqA 0; PSeq SeqB 1])
            (Some [([60; 115; 62]%N, mkSpecial [6%N] [[60; 115; 62]%N])]).
Definition mt_template : template := match ProcessorsModel.build mt_builder with Ok t => t | _ => mkTemplate [] [] 0 0 [] end.
Example C79_special_ex :
  adds_around (PTemplate mt_template) [6%N] /\ special_id mt_mv mt_added 6%N /\
  exists e, encode (mt_tokenizer SFirst (Some (PTemplate mt_template))) OByte (Single (Raw mt_text)) true = Ok e /\ ids e = [6; 4; 3; 1; 1; 3; 2]%N.
Proof.
  split; [|split; [exists [60; 115; 62]%N; split; vm_compute; reflexivity|]].
  - apply (aa_template mt_builder mt_template [Added [([60; 115; 62]%N, 6%N)] 0; Input 0 0]); try reflexivity.
    + intros n sp [H|[]]. injection H as <- <-. reflexivity.
    + left. reflexivity.
  - eexists. split; vm_compute; reflexivity.
Qed.

(** A BPE model: mark, a, b, and the merge of mark and a. *)
Definition mt_bpe_vocab : list (str * N) := [([mt_mark], 0); ([97], 1); ([98], 2); ([mt_mark; 97], 3)]%N.
Definition mt_bpe_merges : list (str * str) := [([mt_mark], [97])]%N.
Definition mt_bpe : bpe :=
  match bpe_build mt_bpe_vocab mt_bpe_merges DNone None None None false false false with Ok m => m | _ => mkBpe [] [] [] DNone None None None false false false end.
Definition mt_bpe_tokenizer (scheme : prepend_scheme) : tokenizer :=
  mkTokenizer (fun c => N.eqb c 32) (fun _ => false) (fun c => N.eqb c 32) (fun ns => ns) (Some (metaspace_pre_tokenize mt_mark scheme true))
    (bpe_model pop_min mt_bpe (fun _ => no_draw)) None av_new None None.
Example C79_bpe_ex :
  heap_ok pop_min /\ built mt_bpe_vocab mt_bpe_merges None mt_bpe /\ b_suffix mt_bpe = None /\ NoDup (map snd mt_bpe_vocab) /\ ~ In [] (map fst mt_bpe_vocab) /\
  dense (bpe_vocabulary mt_bpe) /\ metaspace_tokenizer (mt_bpe_tokenizer SNever) (bpe_vocabulary mt_bpe) mt_mark SNever [] /\
  exists e, encode (mt_bpe_tokenizer SNever) OChar (Single (Raw (32%N :: mt_text))) false = Ok e /\ ids e = [3; 2; 0; 0; 2; 1]%N.
Proof.
  split; [exact pop_min_ok|]. split; [split; [cbn; repeat constructor; cbn; intuition discriminate|exists DNone, None, None, false, false, false; vm_compute; reflexivity]|].
  split; [reflexivity|]. split; [cbn; repeat constructor; cbn; intuition discriminate|]. split; [cbn; intuition discriminate|]. split; [|split].
  - intros t i H. cbn [bpe_vocabulary mv_token_to_id mv_size] in *. unfold b_id in H. assert (V : b_vocab mt_bpe = mt_bpe_vocab) by reflexivity. rewrite V in *.
    apply (aget_In str_eqb str_eqb_eq) in H. cbn in H. cbn. repeat (destruct H as [H|H]; [injection H as <- <-; lia|]). destruct H.
  - split; [split; [reflexivity|discriminate]|]. split; [split; reflexivity|]. split; [|constructor]. exists mt_all, []. apply ah_new.
  - eexists. split; vm_compute; reflexivity.
Qed.

(** ** What the conditions exclude *)
Definition mt_decode (scheme : prepend_scheme) (l : list N) : res unit str :=
  AddedModel.decode mt_mv mt_added (Some (DecodersModel.decode_tokens (DMetaspace mt_mark scheme))) false l.

(** A leading space is lost unless the scheme is [Never]: " a" comes back as "a". *)
Theorem C79_leading_space_refuted : exists e,
  encode (mt_tokenizer SAlways None) OByte (Single (Raw [32; 97]%N)) false = Ok e /\ mt_decode SAlways (ids e) = Ok [97%N].
Proof. eexists. split; vm_compute; reflexivity. Qed.
(** A mark written in the text is decoded to a space. *)
Theorem C79_mark_refuted : exists e,
  encode (mt_tokenizer SAlways None) OByte (Single (Raw [97; mt_mark; 98]%N)) false = Ok e /\ mt_decode SAlways (ids e) = Ok [97; 32; 98]%N.
Proof. eexists. split; vm_compute; reflexivity. Qed.
(** After an added token the scheme [Always] puts a space: "a<s>b" comes back as "a<s> b". *)
Theorem C79_added_refuted : exists e,
  encode (mt_tokenizer SAlways None) OByte (Single (Raw [97; 60; 115; 62; 98]%N)) false = Ok e /\ mt_decode SAlways (ids e) = Ok [97; 60; 115; 62; 32; 98]%N.
Proof. eexists. split; vm_compute; reflexivity. Qed.
(** A character that is not a token is lost: "aé" comes back as "a<u>". *)
Theorem C79_unknown_refuted : exists e,
  encode (mt_tokenizer SAlways None) OByte (Single (Raw [97; 233]%N)) false = Ok e /\ mt_decode SAlways (ids e) = Ok [97; 60; 117; 62]%N.
Proof. eexists. split; vm_compute; reflexivity. Qed.
(** The unknown token written twice in the text comes back once: its two pieces
    are fused into one unknown token. *)
Theorem C79_written_unknown_refuted : exists e,
  encode (mt_tokenizer SAlways None) OByte (Single (Raw [60; 117; 62; 60; 117; 62]%N)) false = Ok e /\ mt_decode SAlways (ids e) = Ok [60; 117; 62]%N.
Proof. eexists. split; vm_compute; reflexivity. Qed.
