(** Proofs about the ready-made byte-level tokenizer. *)
From Coq Require Import String.
From Verif Require Import Base ListFacts StrBytes Utf8 AMap EncodingModel NormModel BpeWordModel BpeWordSpec BpeModel BpeSpec BpeProofs BpeProps BpeTrainModel BpeTrainSpec BpeTrainProps TrainersModel
  ByteLevelModel ProcessorsModel DecodersModel DecodersSpec DecodersProofs2 DecodersProps AddedModel AddedSpec AddedProofs AddedProofs2 AddedProps
  PreTokModel PreTokSpec PreTokenizersModel PreTokenizersSpec PreTokenizersProps TokenizerModel RoundTripModel RoundTripSpec RoundTripProofs RoundTripProps
  ModelFilesModel ModelFilesSpec ComponentFilesModel TokenizerFilesModel TokenizerFilesSpec TokenizerFilesProofs TokenizerFilesProofs2
  TokenizerTrainModel TokenizerTrainSpec TokenizerTrainProofs TokenizerTrainProps TrainSaveModel TrainSaveProps PySettingsModel ImplModel ImplSpec.

(** ** Affixes that are empty *)
Definition bare (m : bpe) : bpe :=
  mkBpe (b_vocab m) (b_vocab_r m) (b_merges m) (b_dropout m) (b_unk m) None None (b_fuse m) (b_fallback m) (b_ignore_merges m).
Definition hollow (o : option str) : Prop := or_empty o = [].

Lemma bare_loop m : hollow (b_prefix m) -> hollow (b_suffix m) -> forall cs first w u, word_loop m first cs w u = word_loop (bare m) first cs w u.
Proof.
  intros HP HS. assert (D : forall f l s, decorate m f l s = decorate (bare m) f l s).
  { intros f l s. unfold decorate, hollow in *. cbn [bare b_prefix b_suffix].
    destruct (b_prefix m) as [p|]; cbn [or_empty] in HP; try subst p; destruct (b_suffix m) as [q|]; cbn [or_empty] in HS; try subst q;
      destruct f, l; cbn [app]; rewrite ?app_nil_r; reflexivity. }
  induction cs as [|c cs IH]; intros first w u; [reflexivity|]. cbn [word_loop]. rewrite D.
  change (b_id (bare m)) with (b_id m). change (b_fallback (bare m)) with (b_fallback m). change (b_unk (bare m)) with (b_unk m). change (b_fuse (bare m)) with (b_fuse m).
  change (unk_id (bare m)) with (unk_id m).
  destruct (b_id m _); [apply IH|]. destruct (if b_fallback m then _ else _); [apply IH|]. destruct (b_unk m) as [ut|]; [|apply IH].
  destruct u as [[ui ul]|]; [destruct (b_fuse m); [apply IH|]|]; destruct (unk_id m ut); cbn [bind]; try reflexivity; apply IH.
Qed.
Lemma bare_tokenize pop m draws s : hollow (b_prefix m) -> hollow (b_suffix m) -> bpe_model pop m draws s = bpe_model pop (bare m) draws s.
Proof.
  intros HP HS. unfold bpe_model, bpe_tokenize, tokenize_plain, merge_word. rewrite !(bare_loop m HP HS). reflexivity.
Qed.
Lemma bare_build vocab merges d p q f b i unk m : p = [] -> bpe_build vocab merges d unk (Some p) (Some q) f b i = Ok m ->
  bpe_build vocab merges d unk None None f b i = Ok (bare m) /\ b_prefix m = Some p /\ b_suffix m = Some q.
Proof.
  intros ->. unfold bpe_build. cbn [opt_blen blen]. destruct d; try discriminate; (destruct (build_merges _ _ _ _ _ _) as [mm| |]; cbn [bind]; [|discriminate..]); intros H; injection H as <-; repeat split; reflexivity.
Qed.

(** ** The processor keeps the ids *)
Lemma byte_level_ids is_ws trim aps e add : exists out, process is_ws (PByteLevel trim aps) e None add = Ok out /\ ids out = ids e.
Proof.
  unfold process. cbn [mapi length seq combine map fst snd process_encodings bind]. eexists. split; [reflexivity|].
  unfold byte_level_process. destruct trim; reflexivity.
Qed.

(** ** Printable ASCII in the image of a text *)
Definition ascii (x : N) : Prop := (33 <= x <= 126)%N.
Lemma ascii_char x : ascii x -> encode_char x = [x] /\ byte_char x = x.
Proof.
  unfold ascii. intros H. split; [unfold encode_char; replace (N.ltb x 128) with true by lia; reflexivity|].
  unfold byte_char. replace (printable_byte x) with true by (unfold printable_byte; lia). reflexivity.
Qed.
Lemma encode_cons x s : encode_utf8 (x :: s) = encode_char x ++ encode_utf8 s.
Proof. reflexivity. Qed.
Lemma char_high y : (y < 128)%N /\ encode_char y = [y] \/ Forall (fun b => 128 <= b)%N (encode_char y).
Proof.
  unfold encode_char. destruct (N.ltb_spec y 128); [left; auto|right]. destruct (N.ltb y 2048); [|destruct (N.ltb y 65536)]; repeat constructor; lia.
Qed.
Lemma ascii_prefix c : Forall ascii c -> forall s b, encode_utf8 s = c ++ b -> exists s2, s = c ++ s2.
Proof.
  induction 1 as [|x c A _ IH]; intros s b E; [exists s; reflexivity|]. destruct s as [|y s]; [discriminate|]. rewrite encode_cons in E.
  destruct (char_high y) as [[L E1]|H].
  - rewrite E1 in E. cbn [app] in E. injection E as -> E. apply IH in E. destruct E as (s2 & ->). exists s2. reflexivity.
  - destruct (encode_char y) as [|z l] eqn:EY; [pose proof (encode_char_len y) as Z; rewrite EY in Z; pose proof (len_utf8_pos y); cbn [length] in Z; lia|].
    cbn [app] in E. injection E as -> E. inversion H; subst. unfold ascii in A. lia.
Qed.
Lemma app_cut {A} : forall (x y a b : list A), x ++ y = a ++ b -> (exists d, a = x ++ d /\ y = d ++ b) \/ (exists d, d <> [] /\ x = a ++ d /\ b = d ++ y).
Proof.
  induction x as [|h x IH]; intros y a b E; [left; exists a; auto|]. destruct a as [|k a]; [right; exists (h :: x); split; [discriminate|]; auto|].
  cbn [app] in E. injection E as -> E. destruct (IH _ _ _ E) as [(d & -> & ->)|(d & N & -> & ->)]; [left|right]; exists d; auto.
Qed.
Lemma ascii_inside c : Forall ascii c -> forall s a b, encode_utf8 s = a ++ c ++ b -> inside_text c s.
Proof.
  intros A s. destruct A as [|x c AX AC]; [intros; exists [], s; reflexivity|]. induction s as [|y s IH]; intros a b E.
  { destruct a; discriminate. }
  rewrite encode_cons in E. destruct (app_cut _ _ _ _ E) as [(d & -> & E1)|(d & ND & E1 & E2)].
  - apply IH in E1. destruct E1 as (u & v & ->). exists (y :: u), v. reflexivity.
  - destruct d as [|z d]; [congruence|]. cbn [app] in E2. injection E2 as -> E2. destruct (char_high y) as [[L EY]|H].
    + rewrite EY in E1. destruct a as [|k a]; [|destruct a; discriminate]. cbn [app] in E1. injection E1 as -> <-. cbn [app] in E2. symmetry in E2. apply (ascii_prefix c AC) in E2.
      destruct E2 as (s2 & ->). exists [], s2. reflexivity.
    + rewrite E1 in H. apply Forall_app in H. destruct H as [_ H]. inversion H; subst. unfold ascii in AX. lia.
Qed.
Lemma image_inside c s : text s -> Forall ascii c -> forall a b, byte_image s = a ++ c ++ b -> inside_text c s.
Proof.
  intros T A a b E. unfold byte_image in E. pose proof (encode_utf8_range _ T) as R. apply map_eq_app in E. destruct E as (a' & l & E & <- & E2).
  apply map_eq_app in E2. destruct E2 as (c' & b' & -> & E3 & <-). eapply ascii_inside; [exact A|]. rewrite E. f_equal. f_equal.
  rewrite E in R. apply Forall_app in R. destruct R as [_ R]. apply Forall_app in R. destruct R as [R _]. clear -A E3 R. revert c E3 A.
  induction R as [|b l B _ IH]; intros [|x c] E A; cbn [map] in E; try discriminate; [reflexivity|]. injection E as E1 E2. inversion A; subst.
  f_equal; [|apply IH; auto]. destruct (ascii_char (byte_char b) ltac:(assumption)) as [_ X]. apply byte_char_inj; [exact B|unfold ascii in *; lia|exact (eq_sym X)].
Qed.

(** A token that reads back and stands in a block is written in its text. *)
Lemma block_inside toks s c : block toks s -> In c toks -> reads_back c -> inside_text c s.
Proof.
  intros B I (T & R). destruct B as [toks s TX E|t x TX _ _].
  - apply List.in_split in I. destruct I as (l1 & l2 & ->). rewrite concat_app in E. cbn [concat] in E. destruct R as [A|(x & IX & NX)].
    + eapply image_inside; [exact TX|exact A|]. symmetry. exact E.
    + exfalso. assert (IM : In x (byte_image s)) by (rewrite <- E; apply in_or_app; right; apply in_or_app; left; exact IX).
      unfold byte_image in IM. apply in_map_iff in IM. destruct IM as (b & EB & IB). pose proof (encode_utf8_range _ TX) as RG. rewrite Forall_forall in RG. exact (NX b (RG b IB) EB).
  - destruct I as [<-|[]]. exists [], []. rewrite app_nil_r. reflexivity.
Qed.
Lemma blocks_inside blocks outs c : Forall2 block blocks outs -> In c (concat blocks) -> reads_back c -> inside_text c (concat outs).
Proof.
  intros F I R. induction F as [|b o bs os B _ IH]; [destruct I|]. cbn [concat] in *. apply in_app_or in I. destruct I as [I|I].
  - destruct (block_inside _ _ _ B I R) as (u & v & ->). exists u, (v ++ concat os). rewrite <- !app_assoc. reflexivity.
  - destruct (IH I) as (u & v & ->). exists (o ++ u), v. rewrite <- !app_assoc. reflexivity.
Qed.

(** ** Any such tokenizer *)
Section core.
  Context {W : Type} (P : platform W).
  Context (HT : sane (pf_pre P)) (HP : heap_ok (pf_pop P)).

  Definition byte_level_parts (g : config W) : Prop :=
    g_normalizer g = None /\ (exists trim rx, g_pre g = Some (CpByteLevel false trim rx)) /\ (exists aps trim rx, g_post g = Some (CqByteLevel aps trim rx)) /\
    (exists aps trim rx, g_decoder g = Some (CdByteLevel aps trim rx)) /\ g_truncation g = None /\ g_padding g = None.

  Record byte_level_config (g : config W) (m : bpe) (ts : list added_token) : Prop := {
    bc_parts : byte_level_parts g;
    bc_model : g_model g = MBpe m;
    bc_hollow : hollow (b_prefix m) /\ hollow (b_suffix m);
    bc_built : exists vocab merges, built vocab merges None (bare m) /\ NoDup (map snd vocab) /\ full_alphabet vocab;
    bc_dense : AddedSpec.dense (bpe_vocabulary m);
    bc_history : exists offered taken, added_history (pf_build P) (bpe_vocabulary m) no_norm (g_added g) offered taken;
    bc_made : made P (MBpe m) g ts }.

  Lemma config_ok g m ts : byte_level_config g m ts -> model_ok (bpe_vocabulary m).
  Proof using. intros C. destruct (bc_built _ _ _ C) as (vocab & merges & B & ND & _). exact (bpe_model_ok _ _ _ _ B ND). Qed.
  Lemma config_facts g m ts : byte_level_config g m ts -> consistent ts -> facts P (MBpe m) g ts.
  Proof using. intros C CO. apply made_facts; [exact (config_ok _ _ _ C)|exact (bc_dense _ _ _ C)|exact (bc_made _ _ _ C)|exact CO]. Qed.
  Lemma config_faithful g m ts : byte_level_config g m ts -> consistent ts -> faithful_tokens ts -> faithful_added (g_added g).
  Proof using.
    intros C CO FT i t E. pose proof (config_facts _ _ _ C CO) as F. pose proof (fa_from _ _ _ _ F i t E) as IN. apply FT; [exact IN|].
    apply (ai_bwd _ _ (fa_inv _ _ _ _ F) _ _ E).
  Qed.

  Lemma core g m ts s ot add : byte_level_config g m ts -> consistent ts -> faithful_tokens ts -> text s ->
    exists e toks blocks outs, encode (runtime P g) ot (Single (Raw s)) add = Ok e /\ ids e = map t_id toks /\
      Forall (token_named (bpe_vocabulary m) (g_added g)) toks /\ map t_value toks = concat blocks /\ concat outs = s /\ Forall2 block blocks outs.
  Proof using HT HP.
    intros C CO FT TX. pose proof (config_faithful _ _ _ C CO FT) as FA0. destruct C as [PA MD [HO1 HO2] (vocab & merges & BT & ND & FA) DN (offered & taken & AH) _].
    destruct PA as (N1 & (trim & rx & N2) & (ap3 & tr3 & rx3 & N3) & (ap4 & tr4 & rx4 & N4) & N5 & N6).
    set (t := runtime P g). set (t0 := with_model t (bpe_model (pf_pop P) (bare m) (pf_draws P))).
    destruct (text_ids (pf_pre P) (PtByteLevel false rx) (pf_pop P) vocab merges (bare m) (pf_draws P) (pf_build P) (g_added g) offered taken HT Logic.I (bl_alone rx) HP BT eq_refl ND FA DN AH FA0
                (tz_space t) (tz_word t) t0 0%N ot s TX) as [(e & E) D];
      try reflexivity.
    { unfold t0, t. cbn [with_model tz_normalizer runtime]. rewrite N1. reflexivity. }
    { unfold t0, t. cbn [with_model tz_pre_tokenizer runtime]. rewrite N2. reflexivity. }
    { unfold t0, t. cbn [with_model tz_truncation runtime]. exact N5. }
    destruct (D e E) as (toks & E1 & E2 & blocks & outs & E3 & E4 & E5).
    assert (ES0 : encode_single t0 (Raw s) 0 ot = Ok e) by exact E.
    destruct (C77_words_needed t (bpe_model (pf_pop P) (bare m) (pf_draws P)) s 0%N ot e ES0) as (ws & TW).
    assert (ES : encode_single t (Raw s) 0 ot = Ok e).
    { rewrite <- ES0. unfold t0. change t with (with_model t (tz_model t)) at 1. apply (C77_words t _ _ s ws); [exact TW|]. intros w _. unfold t. cbn [runtime tz_model]. rewrite MD. cbn [model_tokenize].
      apply bare_tokenize; assumption. }
    destruct (byte_level_ids (tz_blank t) tr3 ap3 e add) as (out & EO & EI).
    exists out, toks, blocks, outs. split; [|rewrite EI; auto].
    unfold encode. fold t. rewrite ES. cbn [other bind]. unfold post_process, truncate_step, process_step, pad_step, t. cbn [runtime tz_truncation tz_post tz_padding tz_blank]. rewrite N5, N6, N3.
    cbn [option_map proc_of bind fst snd]. unfold t in EO. cbn [runtime tz_blank] in EO. rewrite EO. reflexivity.
  Qed.

  Lemma decoded g m ts skip i : byte_level_config g m ts -> decode_ids P g skip i = AddedModel.decode (bpe_vocabulary m) (g_added g) (Some (DecodersModel.decode_tokens DByteLevel)) skip i.
  Proof using.
    intros C. unfold decode_ids. rewrite (bc_model _ _ _ C). destruct (bc_parts _ _ _ C) as (_ & _ & _ & (a & b & c & ->) & _). reflexivity.
  Qed.

  Lemma config_keeps g m ts s : byte_level_config g m ts -> consistent ts -> faithful_tokens ts -> text s -> keeps P g s.
  Proof using HT HP.
    intros C CO FT TX ot add. destruct (core g m ts s ot add C CO FT TX) as (e & toks & blocks & outs & E & E1 & N & V & S & F).
    exists e. split; [exact E|]. rewrite (decoded _ _ _ _ _ C). unfold AddedModel.decode. rewrite E1, named_tokens by exact N. rewrite V, <- S. apply C47_decode. exact F.
  Qed.

  Lemma special_listed g m ts c : byte_level_config g m ts -> consistent ts -> av_is_special (g_added g) c = true ->
    exists t, In t ts /\ at_content t = c /\ c <> [] /\ at_special t = true.
  Proof using.
    intros C CO H. pose proof (config_facts _ _ _ C CO) as F. unfold av_is_special in H. apply str_mem_In in H.
    apply (cl_special _ _ (fa_clean _ _ _ _ F)) in H. destruct H as (t & R & S). unfold registered in R. destruct (aget str_eqb c (av_map (g_added g))) as [i|] eqn:E; [|discriminate].
    destruct (ai_fwd _ _ (fa_inv _ _ _ _ F) _ _ E) as (u & G & EC). rewrite R in G. injection G as <-. pose proof (proj2 (ai_bwd _ _ (fa_inv _ _ _ _ F) _ _ R)) as NE. rewrite EC in NE.
    exists t. split; [eapply fa_from; eauto|]. split; [exact EC|]. split; [exact NE|exact S].
  Qed.

  Lemma config_skips g m ts s : byte_level_config g m ts -> consistent ts -> faithful_tokens ts -> no_special_in ts s -> text s -> keeps_skipping P g s.
  Proof using HT HP.
    intros C CO FT NO TX ot add. destruct (core g m ts s ot add C CO FT TX) as (e & toks & blocks & outs & E & E1 & N & V & S & F).
    exists e. split; [exact E|]. rewrite (decoded _ _ _ _ _ C). unfold AddedModel.decode. rewrite E1, ordinary_kept.
    - rewrite named_tokens by exact N. rewrite V, <- S. apply C47_decode. exact F.
    - rewrite Forall_forall in *. intros i IN. apply in_map_iff in IN. destruct IN as (tk & <- & IN). intros (c & H1 & H2). pose proof (N tk IN) as H3. unfold token_named in H3. rewrite H3 in H1. injection H1 as <-.
      destruct (special_listed _ _ _ _ C CO H2) as (t & IT & EC & NE & SP). rewrite <- EC in NE. apply (NO t IT NE SP). rewrite <- S. eapply blocks_inside; [exact F| |apply (FT t IT NE)].
      rewrite <- V, EC. apply in_map. exact IN.
  Qed.

  (** Adding tokens keeps it so. *)
  Lemma config_extended g m ts g' more : byte_level_config g m ts -> extended P g more g' -> byte_level_config g' m (ts ++ more).
  Proof using.
    intros C X. induction X as [|more g1 new g2 n X IH A|more g1 b X IH]; [rewrite app_nil_r; exact C| |].
    - destruct IH as [PA MD HO BT DN (off & tk & AH) MA]. pose proof (md_add _ _ _ _ _ _ _ MA A) as MA'. rewrite <- app_assoc in MA'. unfold tokenizer_add in A.
      destruct (add_tokens (pf_build P) (model_vocabulary (g_model g1)) (norm_fun P g1) new (g_added g1)) as [av r] eqn:EA. assert (g2 = set_added g1 av) by congruence. assert (r = Some n) by congruence. subst g2 r. clear A.
      constructor; try assumption. exists (off ++ new), (tk ++ new). rewrite MD in EA. unfold norm_fun in EA. rewrite (proj1 PA) in EA. cbn [option_map model_vocabulary] in EA.
      eapply (ah_add _ _ _ _ _ _ None); [exact AH|intros f Hf; discriminate Hf|exact EA].
    - destruct IH as [PA MD HO BT DN (off & tk & AH) MA]. constructor; try assumption; [|apply md_encode_special; exact MA]. exists off, tk. apply ah_encode_special. exact AH.
  Qed.
End core.

(** ** The constructor *)
Section constructor.
  Context {W : Type} (P : platform W).

  Definition constructed (m : bpe) (o : bl_options) : config W :=
    mkConfig None (Some (CpByteLevel false true true)) (MBpe m) (Some (CqByteLevel true (bo_trim_offsets o) true)) (Some (CdByteLevel true true true)) av_new None None.
  Lemma new_plain vocab merges o g : plain_options o -> byte_level_new P vocab merges o = Ok g ->
    exists m, byte_level_model vocab merges o = Ok m /\ g = constructed m o.
  Proof.
    intros (O1 & O2 & O3 & _) H. unfold byte_level_new in H. apply bind_ok in H. destruct H as (m & EM & H). exists m. split; [exact EM|].
    assert (EN : byte_level_normalizers o = Ok []).
    { unfold byte_level_normalizers. rewrite O2. destruct (bo_unicode o) as [[|x l]|]; try reflexivity. cbn [or_empty] in O3. discriminate. }
    rewrite EN in H. cbn [bind byte_level_normalizer] in H. rewrite O1 in H. injection H as <-. reflexivity.
  Qed.
  Lemma constructed_parts m o : byte_level_parts (constructed m o).
  Proof. unfold byte_level_parts. cbn [constructed g_normalizer g_pre g_post g_decoder g_truncation g_padding]. repeat split; eauto. Qed.
  Lemma constructed_made m o : made P (MBpe m) (constructed m o) [].
  Proof.
    change (constructed m o) with (with_post_processor (with_decoder (with_pre_tokenizer (@tokenizer_new W (MBpe m)) (Some (CpByteLevel false true true))) (Some (CdByteLevel true true true))) (Some (CqByteLevel true (bo_trim_offsets o) true))).
    apply md_post, md_decoder, md_pre, md_new.
  Qed.

  Lemma given_config vocab merges o g : plain_options o -> byte_level_new P (Some vocab) (Some merges) o = Ok g ->
    NoDup (map fst vocab) -> NoDup (map snd vocab) -> full_alphabet vocab -> (forall t i, In (t, i) vocab -> (i < N.of_nat (List.length vocab))%N) ->
    exists m, byte_level_config P g m [].
  Proof.
    intros PO H K1 K2 FA LT. destruct (new_plain _ _ _ _ PO H) as (m & EM & ->). exists m. destruct PO as (_ & _ & _ & P4 & P5).
    cbn [byte_level_model] in EM. destruct (bpe_build _ _ _ _ _ _ _ _ _) as [b| |] eqn:EB in EM; try discriminate. cbn [boxed] in EM. injection EM as ->.
    destruct (bare_build _ _ _ _ _ _ _ _ _ _ P4 EB) as (BB & BP & BS). pose proof (build_facts _ _ _ _ _ _ _ _ _ _ BB) as BF.
    constructor.
    - apply constructed_parts.
    - reflexivity.
    - rewrite BP, BS. split; assumption.
    - exists vocab, merges. split; [|auto]. split; [exact K1|]. do 6 eexists. exact BB.
    - intros t i Hi. cbn [bpe_vocabulary mv_token_to_id mv_size] in *. assert (EV : b_vocab m = vocab) by exact (bf_vocab _ _ _ _ BF). unfold b_id in Hi. rewrite EV in *. apply (aget_In str_eqb str_eqb_eq) in Hi. exact (LT _ _ Hi).
    - exists [], []. apply ah_new.
    - apply constructed_made.
  Qed.

  (** *** The words of a text *)
  Lemma splits_texts original l : forall off, exists r, get_splits_loop original RefOriginal false off l = Ok r /\ map (fun x => fst (fst x)) r = map (fun sp => n_normalized (sp_norm sp)) l.
  Proof.
    induction l as [|sp l IH]; intros off; [exists []; auto|]. cbn [get_splits_loop bind]. destruct (IH off) as (r & -> & E). cbn [bind]. eexists. split; [reflexivity|]. cbn [map fst]. rewrite E. reflexivity.
  Qed.
  Lemma words_image m o s : sane (pf_pre P) -> text s -> exists ws, training_words (runtime P (constructed m o)) s = Ok ws /\ concat ws = byte_image s.
  Proof.
    intros HT TX. assert (MO : model_ok (bpe_vocabulary bpe_default)).
    { apply (bpe_model_ok [] [] None); [|constructor]. split; [constructor|]. exists DNone, None, None, false, false, false. reflexivity. }
    assert (DN : AddedSpec.dense (bpe_vocabulary bpe_default)) by (intros t i H; discriminate H).
    destruct (extract_extracted (pf_space P) (pf_word P) (pf_build P) (bpe_vocabulary bpe_default) av_new [] [] s MO DN (ah_new _ _ _)) as (p1 & E1 & I1 & C1 & X1); [intros i t H; discriminate H|exact TX|].
    destruct (C65_pieces (pf_pre P) (PtByteLevel false true) s p1 HT Logic.I I1) as (p2 & gs & E2 & G2 & F2 & _).
    { eapply Forall_impl; [|exact X1]. intros x G _. apply G. }
    destruct (splits_texts (pt_original p2) (pt_splits p2) 0) as (r & ER & EW).
    exists (map (fun x => fst (fst x)) r). split.
    - unfold training_words, do_pre_tokenize. cbn [runtime constructed tz_space tz_word tz_added tz_normalizer tz_pre_tokenizer g_normalizer g_pre g_added option_map pre_of]. rewrite E1. cbn [bind]. rewrite E2. cbn [bind]. unfold get_splits. rewrite ER. reflexivity.
    - rewrite EW, G2, <- C1. unfold split_texts. clear -F2 X1. revert X1. induction F2 as [|sp gr l gs H F IH]; intros X1; [reflexivity|]. inversion X1 as [|? ? X XS]; subst.
      cbn [concat map]. rewrite map_app, concat_app, (IH XS). unfold byte_image. rewrite encode_utf8_app, map_app. f_equal. unfold piece_group in H. destruct (sp_tokens sp) as [ts|] eqn:ET.
      + destruct X as (_ & _ & X). destruct (X ts ET) as (i & t & _ & Y & _). discriminate Y.
      + destruct H as [_ H]. exact (pipeline_concat _ _ _ _ (bl_alone true) H).
  Qed.

  (** *** The size of the corpus *)
  Definition letters (l : list str) : nat := list_sum (map (@List.length N) l).
  Lemma letters_concat l : letters l = List.length (concat l).
  Proof. induction l as [|w l IH]; [reflexivity|]. unfold letters in *. cbn [map list_sum fold_right concat]. rewrite app_length, <- IH. reflexivity. Qed.
  Lemma letters_split w l : letters l = count_occ (list_eq_dec N.eq_dec) l w * List.length w + letters (filter (fun v => if list_eq_dec N.eq_dec v w then false else true) l).
  Proof.
    induction l as [|v l IH]; [reflexivity|]. cbn [count_occ filter]. destruct (list_eq_dec N.eq_dec v w) as [->|NE]; unfold letters in *; cbn [map list_sum fold_right] in *; unfold list_sum in *; lia.
  Qed.
  Lemma count_filter w v l : v <> w -> count_occ (list_eq_dec N.eq_dec) (filter (fun v => if list_eq_dec N.eq_dec v w then false else true) l) v = count_occ (list_eq_dec N.eq_dec) l v.
  Proof.
    intros NE. induction l as [|x l IH]; [reflexivity|]. cbn [filter count_occ]. destruct (list_eq_dec N.eq_dec x w) as [->|N1].
    - destruct (list_eq_dec N.eq_dec w v) as [E|_]; [congruence|exact IH].
    - cbn [count_occ]. destruct (list_eq_dec N.eq_dec x v); rewrite IH; reflexivity.
  Qed.
  Lemma size_bound wc : NoDup (map fst wc) -> forall l, (forall w n, In (w, n) wc -> n = N.of_nat (count_occ (list_eq_dec N.eq_dec) l w)) -> (corpus_size wc <= N.of_nat (letters l))%N.
  Proof.
    induction wc as [|[w n] wc IH]; intros D l H; [unfold corpus_size; cbn [fold_right]; lia|]. cbn [map fst] in D. inversion D as [|? ? NI D']; subst.
    rewrite (letters_split w l). pose proof (H w n (or_introl eq_refl)) as EN.
    assert (X : (corpus_size wc <= N.of_nat (letters (filter (fun v => if list_eq_dec N.eq_dec v w then false else true) l)))%N).
    { apply IH; [exact D'|]. intros v k IV. rewrite count_filter; [apply H; right; exact IV|]. intros ->. apply NI. apply (in_map fst) in IV. exact IV. }
    unfold corpus_size in *. cbn [fold_right fst snd]. lia.
  Qed.
  Lemma counted_bound m o texts wc : sane (pf_pre P) -> Forall text texts -> counted (training_words (runtime P (constructed m o))) texts wc ->
    (corpus_size wc <= N.of_nat (total_bytes texts))%N.
  Proof.
    intros HT TX [D C]. assert (X : exists l, letters l = total_bytes texts /\ forall w, count_occ (list_eq_dec N.eq_dec) l w = occurrences (training_words (runtime P (constructed m o))) w texts).
    { clear C D wc. induction TX as [|s texts T _ (l & E1 & E2)]; [exists []; auto|]. destruct (words_image m o s HT T) as (ws & EW & EC). exists (ws ++ l). split.
      - unfold total_bytes in *. cbn [map list_sum fold_right]. unfold list_sum in E1. rewrite <- E1, !letters_concat, concat_app, app_length, EC. unfold byte_image. rewrite map_length, encode_utf8_len. reflexivity.
      - intros w. rewrite count_occ_app, E2. unfold occurrences. cbn [map list_sum fold_right]. rewrite EW. reflexivity. }
    destruct X as (l & E1 & E2). rewrite <- E1. apply size_bound; [exact D|]. intros w n IN. apply C in IN. rewrite E2. apply IN.
  Qed.

  (** *** Training *)
  Context (by_count : list (char * N) -> list (char * N)) (pop : list tmerge -> option (tmerge * list tmerge)).
  Context (HT : sane (pf_pre P)) (HC : count_sort by_count) (HQ : train_heap pop).

  Lemma alphabet_listed b : (b < 256)%N -> In (byte_char b) byte_alphabet.
  Proof.
    intros L. destruct (alphabet b L) as (E & _). unfold bytes_char in E. apply (aget_In N.eqb N_eqb_eq) in E. apply (in_map snd) in E. exact E.
  Qed.
  Lemma model_dropout vocab merges o m : byte_level_model vocab merges o = Ok m -> b_dropout m <> DOutside.
  Proof.
    unfold byte_level_model. destruct vocab as [v|], merges as [ms|]; try (intros H; injection H as <-; discriminate).
    unfold bpe_build. destruct (bo_dropout o); cbn [boxed]; try discriminate; (destruct (build_merges _ _ _ _ _ _) as [mm| |]; cbn [bind boxed]; [|discriminate..]); intros H; injection H as <-; discriminate.
  Qed.

  Lemma trained_config_ok vocab merges o g vs mf special red g' : plain_options o -> byte_level_new P vocab merges o = Ok g ->
    Forall text (leaves red) -> (5 * N.of_nat (total_bytes (leaves red)) < 2 ^ 31)%N ->
    config_train P by_count pop (TBpe (byte_level_trainer vs mf special)) special red g = Ok g' ->
    exists m, byte_level_config P g' m special.
  Proof.
    intros PO H TX SM TR. destruct (new_plain _ _ _ _ PO H) as (m0 & EM & ->). pose proof (model_dropout _ _ _ _ EM) as DO.
    assert (NP : forall s, In s (leaves red) -> training_words (runtime P (constructed m0 o)) s <> Panic).
    { intros s IS. rewrite Forall_forall in TX. destruct (words_image m0 o s HT (TX s IS)) as (ws & -> & _). discriminate. }
    pose proof (trained_made P by_count pop _ _ _ _ _ _ (constructed_made m0 o) TR) as MA.
    destruct (trained_model P by_count pop _ _ _ _ _ NP TR) as (wc & C & L). cbn [mt_learn any_teacher constructed g_model] in L. apply bind_ok in L. destruct L as ([m sp] & L & X). injection X as X.
    assert (SC : small_corpus wc) by (unfold small_corpus; pose proof (counted_bound m0 o (leaves red) wc HT TX C); lia).
    destruct (trained_vocab_ok _ _ _ _ _ _ _ HC HQ SC DO L) as [MO DN].
    destruct (run_result _ _ _ _ _ _ _ HC HQ SC L) as (al0 & st & wtu & st' & _ & _ & _ & EQ).
    destruct (C37_train by_count pop (byte_level_trainer vs mf special) wc m0 HC HQ SC) as (m2 & toks & first & rest & al & ms & E & (_ & VO & _) & EF & (_ & _ & KA) & (extra & E1 & _) & _). rewrite L in E. injection E as <- _.
    destruct (C37_rebuild by_count pop (byte_level_trainer vs mf special) wc m0 HC HQ SC DO) as (m2 & _ & _ & merges' & E & _ & _ & D1 & D2 & _ & B). rewrite L in E. injection E as <- _.
    assert (N1 : b_prefix m = None /\ b_suffix m = None /\ bare m = m) by (rewrite EQ; repeat split; reflexivity). destruct N1 as (N1 & N2 & N3).
    exists m. destruct (trained_runtime P by_count pop _ _ _ _ _ TR) as (y & TY & EG). constructor.
    - rewrite EG. exact (constructed_parts m0 o).
    - symmetry. exact X.
    - rewrite N1, N2. split; reflexivity.
    - exists (b_vocab m), merges'. rewrite N3. split; [|split; [exact D2|]].
      + split; [exact D1|]. rewrite N1 in B. do 6 eexists. exact B.
      + intros b Hb. assert (IT : In [byte_char b] toks).
        { rewrite EF, E1. apply in_or_app. left. apply BpeTrainProofs.distinct_in. apply in_or_app. right. apply in_or_app. left. apply (in_map (fun c => [c])). apply KA. left. cbn [byte_level_trainer tr_initial]. apply alphabet_listed. exact Hb. }
        apply In_nth_error in IT. destruct IT as (k & Hk). rewrite <- (Nat2N.id k) in Hk. apply VO in Hk. apply (in_map fst) in Hk. exact Hk.
    - exact DN.
    - unfold train in TY. cbn [te_tokenizer te_model] in TY. destruct (reduce _ _) as [wc'| |] in TY; try discriminate. unfold learn_and_add in TY. cbn [te_tokenizer te_model] in TY.
      destruct (mt_learn _ wc' _) as [m'| |]; try discriminate. cbn [with_model tz_added runtime mt_special any_teacher constructed g_added norm_fun g_normalizer option_map] in TY.
      destruct (add_tokens (pf_build P) (model_vocabulary m') None special av_new) as [av [n|]] eqn:EA; [|discriminate]. injection TY as <-.
      assert (EM' : m' = MBpe m) by (rewrite X, EG; reflexivity). subst m'. exists ([] ++ special), ([] ++ special). rewrite EG. cbn [trained_config g_added te_tokenizer with_added tz_added].
      eapply (ah_add _ _ _ _ _ _ None); [apply ah_new|intros f Hf; discriminate Hf|exact EA].
    - rewrite X. exact MA.
  Qed.
End constructor.

(** ** Building the automata of distinct tokens *)
Lemma loop_cache m ts : forall av next n av' r, add_loop m None ts av next n = (av', r) -> av_cache av' = av_cache av.
Proof.
  induction ts as [|t ts IH]; intros av next n av' r H; cbn [add_loop] in H; [injection H as <- _; reflexivity|].
  destruct (add_one m None t av next) as [[a b] q] eqn:E. rewrite (IH _ _ _ _ _ H). unfold add_one in E.
  destruct (is_nil (at_content t)); [injection E as <- _ _; reflexivity|].
  destruct (match aget str_eqb (at_content t) (av_map av) with Some i => _ | None => _ end); [injection E as <- _ _; reflexivity|].
  destruct (match av_token_to_id av m (at_content t) with Some i => _ | None => _ end) as [x y]. injection E as <- _ _. reflexivity.
Qed.

Lemma contents_distinct m av (f : N * added_token -> list (str * N)) : av_inv m av ->
  (forall it, f it = [] \/ f it = [(at_content (snd it), fst it)]) -> NoDup (map fst (flat_map f (av_map_r av))).
Proof.
  intros AI HF. assert (ND : NoDup (map (fun it => at_content (snd it)) (av_map_r av))).
  { pose proof (ai_keys_r _ _ AI) as K.
    assert (B : forall i t, In (i, t) (av_map_r av) -> aget str_eqb (at_content t) (av_map av) = Some i).
    { intros i t H. apply (ai_bwd _ _ AI). apply (In_aget N.eqb N_eqb_eq); [exact K|exact H]. }
    revert K B. induction (av_map_r av) as [|[i t] l IH]; intros K B; [constructor|]. cbn [map fst snd] in *. inversion K as [|? ? K1 K2]; subst. constructor.
    - intros X. apply in_map_iff in X. destruct X as ([j u] & E & X). cbn [snd] in E. apply K1. pose proof (B i t (or_introl eq_refl)) as B1. pose proof (B j u (or_intror X)) as B2.
      rewrite E in B2. assert (i = j) by congruence. subst j. apply (in_map fst) in X. exact X.
    - apply IH; [exact K2|]. intros j u X. apply B. right. exact X. }
  revert ND. induction (av_map_r av) as [|it l IH]; intros ND; [constructor|]. cbn [flat_map map] in *. inversion ND as [|? ? D1 D2]; subst.
  assert (IN : forall c, In c (map fst (flat_map f l)) -> In c (map (fun it => at_content (snd it)) l)).
  { intros c X. apply in_map_iff in X. destruct X as ([c' i] & E & X). cbn [fst] in E. subst c'. apply in_flat_map in X. destruct X as (x & Y & X).
    apply in_map_iff. exists x. split; [|exact Y]. destruct (HF x) as [Z|Z]; rewrite Z in X; [destruct X|]. destruct X as [X|[]]. congruence. }
  rewrite map_app. destruct (HF it) as [Z|Z]; rewrite Z; cbn [map fst app]; [apply IH; exact D2|]. constructor; [|apply IH; exact D2]. intros X. apply D1. apply IN. exact X.
Qed.

Lemma add_distinct build m ts : model_ok m -> AddedSpec.dense m -> (forall l, NoDup (map fst l) -> build l = true) ->
  exists av n, add_tokens build m None ts av_new = (av, Some n).
Proof.
  intros MO DN HB. unfold add_tokens. assert (TF : forall (f : str -> option str) c, None = Some f -> f c <> None) by (intros f c X; discriminate X).
  destruct (add_loop_total m None TF ts av_new (first_next_id av_new m) 0) as (av' & n & E). rewrite E.
  pose proof (loop_cache _ _ _ _ _ _ _ E) as CA. cbn [av_new av_cache] in CA.
  assert (AI : av_inv m av') by (eapply add_loop_inv; [exact MO|exact DN|apply av_new_inv|apply first_next_free; [exact DN|apply av_new_inv]|exact E]).
  assert (B1 : build (plain_pairs av') = true).
  { apply HB. apply (contents_distinct m); [exact AI|]. intros it. destruct (at_normalized (snd it)); auto. }
  assert (B2 : build (normalized_pairs av') = true).
  { apply HB. apply (contents_distinct m); [exact AI|]. intros it. rewrite CA. cbn [aget]. destruct (at_normalized (snd it)); auto. }
  unfold av_refresh. rewrite B1, B2, !orb_true_r. eauto.
Qed.
