(** Proofs about the ready-made SentencePiece tokenizers. *)
From Coq Require Import String.
From Verif Require Import Base ListFacts StrBytes Utf8 AMap EncodingModel NormModel BpeWordModel BpeWordSpec BpeModel BpeSpec BpeProofs BpeProps BpeTrainModel BpeTrainSpec BpeTrainProofs BpeTrainProofs4 BpeTrainProofs8 BpeTrainProps TrainersModel
  PatternModel PatternSpec DecodersModel DecodersSpec DecodersProofs3 DecodersProps AddedModel AddedSpec AddedProofs AddedProofs2 AddedProps NormalizersModel NormalizersSpec PreTokModel PreTokenizersModel PreTokenizersSpec TokenizerModel
  UnigramModel UnigramSpec UnigramProps TrainersSpec TrainersProps
  PreTokSpec PreTokenizersProps RoundTripModel RoundTripSpec RoundTripProofs SpmTripSpec SpmTripProofs MetaTripSpec MetaTripProofs WordTripModel WordTripSpec WordTripProofs WordTripProps
  ModelFilesModel ComponentFilesModel TokenizerFilesModel TokenizerFilesSpec TokenizerTrainModel TokenizerTrainSpec TokenizerTrainProofs TokenizerTrainProps
  TrainSaveModel TrainSaveProps PySettingsModel ImplModel ImplSpec ImplProofs ImplBertModel ImplBertSpec ImplBertProofs ImplSpmModel ImplSpmSpec.

(** ** Words of a text *)
Lemma meta_marked rep puts n : ~ In rep n -> meta_text rep puts n = DecodersSpec.marked rep (with_space puts n).
Proof.
  intros NR. destruct n as [|c r]; [reflexivity|]. unfold meta_text. cbn [DecodersSpec.marked map with_space]. destruct (N.eqb_spec c 32) as [->|N32].
  - rewrite N.eqb_refl. cbn [negb]. rewrite !andb_false_r. reflexivity.
  - destruct (N.eqb_spec c rep) as [->|_]; [destruct NR; left; reflexivity|]. destruct puts; cbn [andb negb]; [|cbn [map]; destruct (N.eqb_spec c 32); [congruence|reflexivity]].
    cbn [map]. rewrite N.eqb_refl. destruct (N.eqb_spec c 32); [congruence|]. reflexivity.
Qed.

Lemma heads_only p rep s ps : (forall c, p c = N.eqb c rep) -> marks_next p s ps -> Forall (fun w => w <> [] /\ head_only rep w) ps.
Proof.
  intros HP M. assert (X : forall x, Forall (fun c => p c = false) x -> ~ In rep x).
  { intros x F I. rewrite Forall_forall in F. specialize (F rep I). rewrite HP, N.eqb_refl in F. discriminate. }
  assert (F : forall s ps, marks_first p s ps -> Forall (fun w => w <> [] /\ head_only rep w) ps).
  { induction 1 as [|c x s0 ps0 PC FX M0 IH]; [constructor|]. constructor; [|exact IH]. split; [discriminate|]. unfold head_only. cbn [tl]. apply X. exact FX. }
  destruct M as [s ps M|x s ps NX FX M]; [exact (F _ _ M)|]. constructor; [|exact (F _ _ M)]. split; [exact NX|]. intros I. apply (X x FX). destruct x as [|c x]; [destruct I|right; exact I].
Qed.

Definition putting (scheme : prepend_scheme) : bool := match scheme with SAlways => true | _ => false end.
Lemma meta_words T rep scheme n ws : scheme <> SFirst -> ~ In rep n -> words_of T (PtMetaspace rep scheme true) n ws ->
  concat ws = DecodersSpec.marked rep (with_space (putting scheme) n) /\ Forall (fun w => w <> [] /\ head_only rep w) ws.
Proof.
  intros NF NR W. destruct n as [|c r]; [cbn [words_of] in W; subst ws; split; [reflexivity|constructor]|]. unfold words_of in W. set (n := c :: r) in *. cbn [pieces_of] in W. destruct W as (puts & P1 & P2 & W).
  assert (EP : puts = putting scheme) by (destruct scheme; [congruence|apply P2; reflexivity|apply P1; reflexivity]). subst puts. split.
  - rewrite <- meta_marked by exact NR. apply (behavior_concat _ MergedWithNext _ _ ltac:(discriminate) W).
  - eapply heads_only; [|exact W]. reflexivity.
Qed.

(** ** Decoding a text *)
Lemma bpe_spells_any pop vocab merges m draws w : heap_ok pop -> built vocab merges None m -> b_suffix m = None -> NoDup (map snd vocab) ->
  (forall c, In c w -> In [c] (map fst vocab)) -> spells (bpe_vocabulary m) (bpe_model pop m draws) w.
Proof.
  intros HP BT NS ND AL. destruct (bpe_values pop vocab merges m (draws w) w HP BT NS ND AL) as (toks & E1 & C1 & V1 & O1). pose proof BT as [D1 (d & unk & sf & fu & fb & ig & B)]. apply build_facts in B.
  assert (AK : forall p c q, w = p ++ c :: q -> known_char m (is_nil p) (is_nil q) c).
  { intros p c q ->. unfold known_char. rewrite (plain_decorate _ _ _ _ _ _ B NS). unfold b_id. rewrite (bf_vocab _ _ _ _ B).
    assert (Hc : In c (p ++ c :: q)) by (apply in_or_app; right; left; reflexivity). specialize (AL c Hc). apply in_map_iff in AL. destruct AL as ([y i] & Ey & Hin). cbn [fst] in Ey. subst y.
    rewrite (In_aget str_eqb str_eqb_eq _ _ _ D1 Hin). discriminate. }
  exists toks. split; [unfold bpe_model; rewrite E1; reflexivity|]. split; [exact C1|]. rewrite Forall_forall in *. intros t Ht. specialize (V1 t Ht). specialize (O1 t Ht). split; [|split; [|exact O1]].
  - destruct (C33_known_word _ _ _ _ _ _ _ _ _ HP BT ND AK E1 Ht) as (pre & x & post & _ & E2 & E3). rewrite E2 in O1. cbn [fst snd] in O1.
    assert (EV : t_value t = x) by (destruct E3 as [E3|(_ & -> & E3)]; [rewrite E3; unfold in_place; apply (plain_decorate _ _ _ _ _ _ B NS)|exact E3]). rewrite EV. intros ->. cbn [blen] in O1. lia.
  - cbn [bpe_vocabulary mv_token_to_id]. apply (mo_read _ (bpe_model_ok _ _ _ _ BT ND)). cbn [bpe_vocabulary mv_vocab]. rewrite (bf_vocab _ _ _ _ B). exact V1.
Qed.

Lemma meta_decoded t mv TN nz TP rep scheme offered s ot add skip :
  word_tokenizer t mv TN nz TP (PtMetaspace rep scheme true) offered -> model_ok mv -> AddedSpec.dense mv -> scheme <> SFirst -> rep <> 32%N ->
  text s -> none_in offered s -> ~ In rep (normal_text TN nz s) ->
  (forall w, w <> [] -> occurs w (DecodersSpec.marked rep (with_space (putting scheme) (normal_text TN nz s))) -> spells mv (tz_model t) w) ->
  (skip = true -> Forall (unwritten rep (normal_text TN nz s)) offered) ->
  tz_post t = None -> tz_truncation t = None -> tz_padding t = None ->
  exists e, encode t ot (Single (Raw s)) add = Ok e /\
    AddedModel.decode mv (tz_added t) (Some (DecodersModel.decode_tokens (DMetaspace rep scheme))) skip (ids e) = Ok (shown_text (putting scheme) (normal_text TN nz s)).
Proof.
  intros WT MO DN NF R32 TX NI NR SP SK Ho Ht Hp. set (n := normal_text TN nz s) in *.
  assert (WW : forall ws, words_of TP (PtMetaspace rep scheme true) n ws -> Forall (fun w => w <> [] /\ occurs w (DecodersSpec.marked rep (with_space (putting scheme) n))) ws).
  { intros ws W. destruct (meta_words TP rep scheme n ws NF NR W) as [C F]. apply Forall_forall. intros w IW. rewrite Forall_forall in F. destruct (F w IW) as [NE _]. apply List.in_split in IW. destruct IW as (l1 & l2 & ->).
    split; [exact NE|]. rewrite concat_app in C. cbn [concat] in C. exists (concat l1), (concat l2). symmetry. exact C. }
  destruct (word_ids t mv TN nz TP _ offered s 0%N ot WT MO DN Ht TX NI) as (e & ws & tss & E & W & _ & FA & I & N).
  { intros ws W. eapply Forall_impl; [|exact (WW ws W)]. cbn beta. intros w [HW1 HW]. destruct (SP w HW1 HW) as (toks & A1 & _ & A3). exists toks. split; [exact A1|]. eapply Forall_impl; [|exact A3]. cbn beta. tauto. }
  fold n in W. exists e. split.
  - cbn [encode encode_single]. rewrite E. cbn [other bind]. unfold post_process, truncate_step, process_step, pad_step. rewrite Ho, Ht, Hp. reflexivity.
  - destruct (meta_words TP rep scheme n ws NF NR W) as [C HO]. specialize (WW ws W).
    assert (S2 : Forall2 (fun w toks => concat (map t_value toks) = w /\ Forall (fun k => t_value k <> []) toks) ws tss).
    { clear -FA WW SP. induction FA as [|w ts ws tss [EA _] _ IH]; [constructor|]. apply Forall_cons_iff in WW. destruct WW as [W1 WW]. constructor; [|exact (IH WW)].
      destruct (SP w (proj1 W1) (proj2 W1)) as (toks & A1 & A2 & A3). rewrite EA in A1. injection A1 as <-. split; [exact A2|]. eapply Forall_impl; [|exact A3]. cbn beta. tauto. }
    assert (CV : concat (map t_value (concat tss)) = DecodersSpec.marked rep (with_space (putting scheme) n)).
    { rewrite <- C. clear -S2. induction S2 as [|w ts ws tss [E _] _ IH]; [reflexivity|]. cbn [concat]. rewrite map_app, concat_app, E, IH. reflexivity. }
    assert (NV : Forall (fun k => t_value k <> []) (concat tss)).
    { clear -S2. induction S2 as [|w ts ws tss [_ E] _ IH]; [constructor|]. cbn [concat]. apply Forall_app. split; assumption. }
    unfold AddedModel.decode. rewrite I, kept_values by exact N.
    assert (K : filter (fun v => negb (skip && av_is_special (tz_added t) v)) (map t_value (concat tss)) = map t_value (concat tss)).
    { apply filter_all. apply Forall_map. apply Forall_forall. intros x Hx. destruct skip; [|reflexivity]. cbn [andb]. destruct (av_is_special (tz_added t) (t_value x)) eqn:ES; [|reflexivity]. exfalso.
      unfold av_is_special in ES. apply str_mem_In in ES. destruct WT as (_ & _ & (build & NF' & taken & AH) & _). destruct (special_history _ _ _ _ _ _ AH) as (_ & SH & _). destruct (SH _ ES) as (tk & I1 & I2 & I3 & I4).
      specialize (SK eq_refl). rewrite Forall_forall in SK. unfold unwritten in SK. specialize (SK tk I1 I2). rewrite I3 in SK. specialize (SK I4). destruct SK as [S1 SO]. apply SO. rewrite Forall_forall in NV. specialize (NV x Hx).
      apply List.in_split in Hx. destruct Hx as (l1 & l2 & EX). rewrite EX, map_app, concat_app in CV. cbn [map concat] in CV.
      pose proof (word_part rep (putting scheme) n [] [] _ _ _ (eq_sym CV) NV) as X. cbn [app] in X. rewrite app_nil_r in X.
      eapply unmarked_part; [exact X|exact S1|exact NV|]. exists [], []. rewrite app_nil_r. reflexivity. }
    rewrite K. destruct (map t_value (concat tss)) as [|v vs] eqn:EV.
    + assert (n = []) as ->. { clear -CV. cbn [concat] in CV. destruct n as [|c r]; [reflexivity|]. unfold with_space in CV. destruct (putting scheme && negb (N.eqb c 32)); discriminate. }
      destruct scheme; reflexivity.
    + assert (HV : head_only rep v /\ v <> []).
      { destruct S2 as [|w ts ws tss [E2 E3] _]; [discriminate|]. apply Forall_cons_iff in HO. destruct HO as [[NW HO] _]. cbn [concat] in EV. destruct ts as [|t0 ts]; [cbn [map concat] in E2; congruence|]. cbn [map app] in EV. injection EV as <- _. cbn [map concat] in E2. rewrite <- E2 in HO.
        apply Forall_cons_iff in E3. destruct E3 as [E3 _]. split; [|exact E3]. intros X. apply HO. destruct (t_value t0) as [|x0 v0]; [destruct X|]. cbn [app tl] in *. apply in_or_app. left. exact X. }
      destruct HV as [HV NVV]. rewrite (C49_any_cut rep scheme v vs (with_space (putting scheme) n)).
      * f_equal. unfold shown_text. destruct n as [|c r]; [destruct scheme; reflexivity|]. destruct scheme; cbn [is_never putting with_space andb]; [congruence|reflexivity|]. destruct (N.eqb_spec c 32) as [->|N32]; cbn [negb drop_one_space N.eqb]; [reflexivity|].
        destruct (N.eqb_spec c 32); [congruence|reflexivity].
      * unfold with_space. destruct n as [|c r]; [exact NR|]. destruct (putting scheme && negb (N.eqb c 32)); [|exact NR]. intros [X|X]; [congruence|exact (NR X)].
      * exact NVV.
      * exact CV.
      * intros _. exact HV.
Qed.

(** ** The configuration *)
Section config.
  Context {W : Type} (P : platform W).

  Record spm_config (g : config W) (n : norm_config) (rep : char) (prefix : bool) (M : @model W) (offered taken : list added_token) : Prop := {
    sg_normal : g_normalizer g = Some n;
    sg_pre : g_pre g = Some (CpMetaspace rep (meta_scheme prefix) true);
    sg_model : g_model g = M;
    sg_post : g_post g = None;
    sg_decoder : g_decoder g = Some (CdMetaspace rep (meta_scheme prefix) true);
    sg_plain : g_truncation g = None /\ g_padding g = None;
    sg_history : added_history (pf_build P) (model_vocabulary M) any_norm (g_added g) offered taken }.

  Lemma spm_extended g n rep prefix M offered taken ts g' : spm_config g n rep prefix M offered taken -> extended P g ts g' -> spm_config g' n rep prefix M (offered ++ ts) (taken ++ ts).
  Proof.
    intros C X. induction X as [|ts g1 more g2 k X IH H|ts g1 b X IH].
    - rewrite !app_nil_r. exact C.
    - unfold tokenizer_add in H. destruct IH as [A1 A2 A3 A4 A5 A6 A7].
      destruct (add_tokens (pf_build P) (model_vocabulary (g_model g1)) (norm_fun P g1) more (g_added g1)) as [av r] eqn:EA. injection H as <- ->. constructor; try assumption.
      rewrite A3 in EA. cbn [set_added g_added]. rewrite !app_assoc. eapply ah_add; [exact A7|intros f _; exact Logic.I|exact EA].
    - destruct IH as [A1 A2 A3 A4 A5 A6 A7]. constructor; try assumption. cbn [encode_special_tokens set_added g_added]. apply ah_encode_special. exact A7.
  Qed.

  Lemma spm_is g n rep prefix M offered taken : tables_ok (pf_norm P) -> sane (pf_pre P) -> NormalizersSpec.usable (norm_of (pf_engines P) n) -> is_scalar rep = true ->
    spm_config g n rep prefix M offered taken -> Forall verbatim offered ->
    word_tokenizer (runtime P g) (model_vocabulary M) (pf_norm P) (norm_of (pf_engines P) n) (pf_pre P) (PtMetaspace rep (meta_scheme prefix) true) offered.
  Proof.
    intros HN HT U RS [A1 A2 A3 A4 A5 A6 A7] HO. split; [split; [exact HN|]; split; [exact U|]; cbn [runtime tz_normalizer]; rewrite A1; reflexivity|].
    split; [split; [exact HT|]; split; [exact RS|]; cbn [runtime tz_pre_tokenizer]; rewrite A2; reflexivity|]. split; [exists (pf_build P), any_norm, taken; exact A7|exact HO].
  Qed.

  (** The round trip, given that the model spells the words. *)
  Lemma spm_shows g n rep prefix M offered taken s ot add skip : tables_ok (pf_norm P) -> sane (pf_pre P) -> NormalizersSpec.usable (norm_of (pf_engines P) n) -> is_scalar rep = true -> rep <> 32%N ->
    spm_config g n rep prefix M offered taken -> Forall verbatim offered -> model_ok (model_vocabulary M) -> AddedSpec.dense (model_vocabulary M) ->
    let nt := normal_text (pf_norm P) (norm_of (pf_engines P) n) s in
    text s -> none_in offered s -> ~ In rep nt -> (forall w, w <> [] -> occurs w (seen rep prefix nt) -> spells (model_vocabulary M) (model_tokenize P M) w) ->
    (skip = true -> Forall (unwritten rep nt) offered) ->
    exists e, encode (runtime P g) ot (Single (Raw s)) add = Ok e /\ decode_ids P g skip (ids e) = Ok (shown_text prefix nt).
  Proof.
    intros HN HT U RS R32 C HO MO DN nt TX NI NR SP SK. pose proof (spm_is g n rep prefix M offered taken HN HT U RS C HO) as WT. destruct C as [A1 A2 A3 A4 A5 [A6 A6'] A7].
    destruct (meta_decoded (runtime P g) (model_vocabulary M) (pf_norm P) (norm_of (pf_engines P) n) (pf_pre P) rep (meta_scheme prefix) offered s ot add skip WT MO DN) as (e & E & D); try assumption.
    - destruct prefix; discriminate.
    - cbn [runtime tz_model]. rewrite A3. unfold seen in SP. destruct prefix; exact SP.
    - cbn [runtime tz_post]. rewrite A4. reflexivity.
    - exists e. split; [exact E|]. unfold decode_ids. rewrite A3, A5. cbn [option_map dec_of]. cbn [runtime tz_added] in D. rewrite D. destruct prefix; reflexivity.
  Qed.

  (** *** The constructors *)
  Lemma set_norm_told M g g' n cs : told_config P M g cs -> set_norm P n g = Ok g' ->
    exists av, g' = mkConfig (Some n) None M None None av None None /\ added_history (pf_build P) (model_vocabulary M) any_norm av (map special_text cs) (map special_text cs).
  Proof.
    intros [(av & ->) TH TK TC] Y. cbn [set_added g_added] in TH. unfold set_norm, with_normalizer in Y. destruct (av_refresh_normalized (pf_build P) _ _) as [av' ok] eqn:ER in Y. destruct ok; [|discriminate]. injection Y as <-. exists av'. split; [reflexivity|].
    eapply ah_renormalize; [|intros f _; exact Logic.I|exact ER]. exact (history_any _ _ _ _ _ _ TH).
  Qed.
  Lemma set_norm_new M g' n : set_norm P n (tokenizer_new M) = Ok g' -> g' = mkConfig (Some n) None M None None av_new None None \/
    exists av, g' = mkConfig (Some n) None M None None av None None.
  Proof. unfold set_norm, with_normalizer. destruct (av_refresh_normalized _ _ _) as [av ok]. destruct ok; [|discriminate]. intros H. injection H as <-. right. eexists. reflexivity. Qed.

  Lemma meta_config M n rep prefix av offered g : meta_parts rep prefix (mkConfig (Some n) None M None None av None None) = Ok g ->
    added_history (pf_build P) (model_vocabulary M) any_norm av offered offered -> exists c, rep = [c] /\ spm_config g n c prefix M offered offered.
  Proof.
    unfold meta_parts. destruct rep as [|c [|d l]]; intros H AH; try discriminate. injection H as <-. exists c. split; [reflexivity|]. constructor; try reflexivity; [split; reflexivity|exact AH].
  Qed.

  (** BPE. *)
  Lemma spm_model_given v ms o m : sound_vocab v -> spm_bpe_model (Some v) (Some ms) o = Ok m ->
    built v ms None m /\ b_vocab m = v /\ b_suffix m = None /\ model_ok (bpe_vocabulary m) /\ AddedSpec.dense (bpe_vocabulary m).
  Proof.
    intros (D1 & D2 & LT) H. unfold spm_bpe_model in H. destruct (so_unk o) as [u|]; [|discriminate]. destruct (so_fuse o) as [f|]; [|discriminate].
    destruct (bpe_build _ _ _ _ _ _ _ _ _) as [b| |] eqn:EB in H; try discriminate. cbn [boxed] in H. injection H as ->. pose proof (build_facts _ _ _ _ _ _ _ _ _ _ EB) as BF.
    assert (BT : built v ms None m) by (split; [exact D1|do 6 eexists; exact EB]).
    assert (F : b_suffix m = None).
    { unfold bpe_build in EB. destruct (so_dropout o); try discriminate; (destruct (build_merges _ _ _ _ _ _) as [mm| |]; cbn [bind] in EB; [|discriminate..]); injection EB as <-; reflexivity. }
    split; [exact BT|]. split; [exact (bf_vocab _ _ _ _ BF)|]. split; [exact F|]. split; [eapply bpe_model_ok; eauto|].
    intros t i Hi. cbn [bpe_vocabulary mv_token_to_id mv_size] in *. unfold b_id in Hi. rewrite (bf_vocab _ _ _ _ BF) in *. apply (aget_In str_eqb str_eqb_eq) in Hi. exact (LT _ _ Hi).
  Qed.

  Lemma spm_bpe_given v ms o g : sound_vocab v -> spm_bpe_new P (Some v) (Some ms) o = Ok g ->
    exists m rep cs, spm_bpe_model (Some v) (Some ms) o = Ok m /\ so_rep o = [rep] /\ incl cs [str_of (so_unk o)] /\ (In (str_of (so_unk o)) (map fst v) -> In (str_of (so_unk o)) cs) /\
      spm_config g CnNFKC rep (so_prefix o) (MBpe m) (map special_text cs) (map special_text cs).
  Proof.
    intros SV H. unfold spm_bpe_new in H. apply bind_ok in H. destruct H as (m & EM & H). apply bind_ok in H. destruct H as (g1 & H1 & H). apply bind_ok in H. destruct H as (g2 & H2 & H).
    destruct (spm_model_given v ms o m SV EM) as (BT & EV & _ & MO & DN).
    destruct (ImplBertProofs.told_all P (MBpe m) MO DN _ _ _ _ (told_new P _) H1) as (cs & T & A & B). cbn [app] in T. destruct (set_norm_told _ _ _ _ _ T H2) as (av & -> & AH).
    destruct (meta_config _ _ _ _ _ _ _ H AH) as (rep & ER & C). exists m, rep, cs. split; [exact EM|]. split; [exact ER|]. split; [exact B|]. split; [|exact C].
    intros I. apply A; [left; reflexivity|]. change (mv_token_to_id (model_vocabulary (MBpe m)) (str_of (so_unk o))) with (aget str_eqb (str_of (so_unk o)) (b_vocab m)). rewrite EV.
    apply in_map_iff in I. destruct I as ([c i] & EQ & I). cbn [fst] in EQ. subst c. rewrite (In_aget str_eqb str_eqb_eq _ _ _ (proj1 SV) I). discriminate.
  Qed.

  Lemma spm_bpe_accepts v ms o unk fuse rep : sound_vocab v -> (forall l, NoDup (map fst l) -> pf_build P l = true) ->
    so_unk o = ArgText unk -> so_fuse o = Some fuse -> so_rep o = [rep] -> so_dropout o <> DOutside -> acceptable v None ms -> exists g, spm_bpe_new P (Some v) (Some ms) o = Ok g.
  Proof.
    intros SV HB EU EF ER DO AC. destruct (proj2 (build_accepts v ms (so_dropout o) (Some unk) None None fuse false false) (conj DO AC)) as (m & EM).
    assert (EM' : spm_bpe_model (Some v) (Some ms) o = Ok m) by (unfold spm_bpe_model; rewrite EU, EF, EM; reflexivity). destruct (spm_model_given v ms o m SV EM') as (_ & _ & _ & MO & DN).
    unfold spm_bpe_new. rewrite EM'. cbn [bind].
    destruct (told_total P (MBpe m) MO DN HB [str_of (so_unk o)] _ _ (told_new P _)) as (g1 & E1). rewrite E1. cbn [bind].
    destruct (ImplBertProofs.told_all P (MBpe m) MO DN _ _ _ _ (told_new P _) E1) as (cs & T & _). cbn [app] in T.
    unfold set_norm. destruct (normal_total P (MBpe m) MO DN HB g1 cs CnNFKC T) as (g' & ->). cbn [bind]. unfold meta_parts. rewrite ER. eauto.
  Qed.

  (** Unigram. *)
  Lemma spm_uni_given v rep prefix g : spm_uni_new P (Some v) rep prefix = Ok g ->
    exists m c, uni_from (pf_arith P) v None false = Ok m /\ rep = [c] /\ spm_config g (CnSequence [CnNmt; CnNFKC; squeeze]) c prefix (MUnigram m) [] [].
  Proof.
    intros H. unfold spm_uni_new in H. apply bind_ok in H. destruct H as (m & EM & H). apply bind_ok in H. destruct H as ([] & _ & H). apply bind_ok in H. destruct H as (g2 & H2 & H).
    destruct (set_norm_told (MUnigram m) _ _ _ _ (told_new P _) H2) as (av & -> & AH). destruct (meta_config _ _ _ _ _ _ _ H AH) as (c & ER & C). exists m, c. split; [|split; [exact ER|exact C]].
    unfold unigram_new in EM. destruct (uni_from _ _ _ _) as [u| |] in EM |- *; cbn [boxed] in EM; try discriminate. injection EM as ->. reflexivity.
  Qed.
  Lemma from_spm_given f g : from_spm P f = Ok g ->
    exists m, sf_type f = 1%N /\ uni_from (pf_arith P) (sf_pieces f) (Some (sf_unk f)) (sf_fallback f) = Ok m /\
      spm_config g (CnSequence (match sf_chart f with Some c => [CnPrecompiled c] | None => [] end ++ [squeeze])) 9601%N true (MUnigram m) [] [].
  Proof.
    intros H. unfold from_spm in H. destruct (N.eqb_spec (sf_type f) 1) as [ET|]; [|discriminate]. cbn [negb] in H.
    apply bind_ok in H. destruct H as (m & EM & H). apply bind_ok in H. destruct H as (first & EF & H). apply bind_ok in H. destruct H as ([] & _ & H). apply bind_ok in H. destruct H as (g2 & H2 & H).
    assert (EQ : first = match sf_chart f with Some c => [CnPrecompiled c] | None => [] end).
    { destruct (sf_chart f) as [c|]; [|injection EF as <-; reflexivity]. destruct (en_chart (pf_engines P) c); [injection EF as <-; reflexivity|discriminate]. }
    subst first. destruct (set_norm_told (MUnigram m) _ _ _ _ (told_new P _) H2) as (av & -> & AH). destruct (meta_config _ _ _ _ _ _ _ H AH) as (c & ER & C). injection ER as <-. exists m. split; [exact ET|]. split; [|exact C].
    unfold unigram_new in EM. destruct (uni_from _ _ _ _) as [u| |] in EM |- *; cbn [boxed] in EM; try discriminate. injection EM as ->. reflexivity.
  Qed.
End config.

(** ** Texts *)
Lemma normal_is_text TN nz s : tables_ok TN -> NormalizersSpec.usable nz -> text s -> text (normal_text TN nz s).
Proof.
  intros TO U TX. destruct s as [|c s]; [constructor|]. unfold normal_text.
  assert (S : NormSpec.solid (nfrom (c :: s))) by (rewrite NormProofs.nfrom_show; apply NormProofs5.solid_show, NormProofs5.id_cal_solid).
  destruct (NormalizersProps.C68_normalizer TN nz (nfrom (c :: s)) TO U (NormProofs.nfrom_aligned _) S TX) as (ns' & cal & cal' & E & _ & _ & _ & _ & _ & _ & T').
  unfold SpmTripModel.run_normalizer. rewrite E. exact T'.
Qed.
Lemma seen_text rep prefix n : is_scalar rep = true -> text n -> text (seen rep prefix n).
Proof.
  intros R T. unfold seen, DecodersSpec.marked. apply Forall_map. assert (T' : text (with_space prefix n)).
  { unfold with_space. destruct n as [|c r]; [exact T|]. destruct (prefix && negb (N.eqb c 32)); [constructor; [reflexivity|exact T]|exact T]. }
  eapply Forall_impl; [|exact T']. cbn beta. intros c Hc. destruct (N.eqb c 32); assumption.
Qed.
Lemma occurs_text w x : text x -> occurs w x -> text w.
Proof. intros T (a & b & ->). apply Forall_app in T. destruct T as [_ T]. apply Forall_app in T. apply T. Qed.
Lemma occurs_char c w x : occurs w x -> In c w -> In c x.
Proof. intros (a & b & ->) I. apply in_or_app. right. apply in_or_app. left. exact I. Qed.
Lemma occurs_trans x y z : occurs x y -> occurs y z -> occurs x z.
Proof. intros (a & b & ->) (c & d & ->). exists (c ++ a), (b ++ d). rewrite <- !app_assoc. reflexivity. Qed.

Lemma meta_sight T rep prefix n ws : words_of T (PtMetaspace rep (meta_scheme prefix) true) n ws ->
  occurs (concat ws) (seen rep prefix n) /\ forall c, In c (seen rep prefix n) -> In c (concat ws).
Proof.
  intros W. destruct n as [|c r]; [cbn [words_of] in W; subst ws; split; [exists [], []; reflexivity|intros c []]|]. unfold words_of in W. cbn [pieces_of] in W. destruct W as (puts & P1 & P2 & W).
  assert (EP : puts = prefix) by (destruct prefix; [apply P1|apply P2]; reflexivity). subst puts. rewrite (behavior_concat _ MergedWithNext _ _ ltac:(discriminate) W).
  assert (O : forall x y : str, occurs y (x ++ y)) by (intros x y; exists x, []; rewrite app_nil_r; reflexivity).
  unfold seen, meta_text. cbn [DecodersSpec.marked map with_space]. destruct (N.eqb_spec c 32) as [->|N32].
  - rewrite N.eqb_refl. cbn [negb]. rewrite !andb_false_r. cbn [map]. rewrite N.eqb_refl. split; [apply (O [])|auto].
  - destruct (N.eqb_spec c rep) as [->|NR]; cbn [negb]; destruct prefix; cbn [andb map]; rewrite ?N.eqb_refl; (destruct (N.eqb_spec rep 32) || idtac); (destruct (N.eqb_spec c 32) || idtac); try congruence.
    all: try (split; [first [apply (O [])|apply (O [_])]|cbn; intros; intuition]).
Qed.

(** ** Training *)
Section training.
  Context {W : Type} (P : platform W).
  Context (by_count : list (char * N) -> list (char * N)) (pop : list tmerge -> option (tmerge * list tmerge)).

  Lemma spm_training_words g n rep prefix M s : spm_config P g n rep prefix M [] [] -> g_added g = av_new ->
    tables_ok (pf_norm P) -> sane (pf_pre P) -> NormalizersSpec.usable (norm_of (pf_engines P) n) -> is_scalar rep = true -> text s ->
    exists ws, training_words (runtime P g) s = Ok ws /\ words_of (pf_pre P) (PtMetaspace rep (meta_scheme prefix) true) (normal_text (pf_norm P) (norm_of (pf_engines P) n) s) ws.
  Proof.
    intros CF AV HN HT U RS TX. set (mv := bpe_vocabulary bpe_default). set (nz := norm_of (pf_engines P) n) in *. set (p := PtMetaspace rep (meta_scheme prefix) true).
    assert (MO : model_ok mv).
    { apply (bpe_model_ok [] [] None); [|constructor]. split; [constructor|]. exists DNone, None, None, false, false, false. reflexivity. }
    assert (DN : AddedSpec.dense mv) by (intros t i H; discriminate H).
    assert (UP : PreTokenizersSpec.usable p) by exact RS.
    destruct (word_extract (pf_space P) (pf_word P) (pf_build P) mv av_new [] [] (pf_norm P) nz s HN U MO DN (ah_new _ _ _) eq_refl) as (p1 & E1 & I1 & M1); [intros i t H; discriminate H|exact TX|constructor|].
    assert (SO1 : Forall section_ok (pt_splits p1)).
    { destruct (normal_text (pf_norm P) nz s) as [|c x]; [rewrite M1; constructor|]. destruct M1 as (z & -> & _ & _ & LZ). constructor; [|constructor]. intros _. exact LZ. }
    destruct (C65_pieces (pf_pre P) p s p1 HT UP I1 SO1) as (p2 & gs & E2 & G & F & _).
    destruct (splits_texts (pt_original p2) (pt_splits p2) 0) as (r & ER & EW).
    exists (map (fun x => fst (fst x)) r). split.
    - unfold training_words, do_pre_tokenize. cbn [runtime tz_normalizer tz_pre_tokenizer tz_space tz_word tz_added]. rewrite AV, (sg_normal _ _ _ _ _ _ _ _ CF), (sg_pre _ _ _ _ _ _ _ _ CF). cbn [option_map pre_of]. fold p.
      fold nz. rewrite E1. cbn [bind]. rewrite E2. cbn [bind]. unfold get_splits. rewrite ER. reflexivity.
    - rewrite EW. destruct (normal_text (pf_norm P) nz s) as [|c x] eqn:ENT.
      + rewrite M1 in F. inversion F; subst gs. cbn [concat] in G. rewrite G. reflexivity.
      + destruct M1 as (z & EZ & TZ & NZ & _). rewrite EZ in F. inversion F as [|? g0 ? ? PG F']; subst. inversion F'; subst. cbn [concat] in G. rewrite app_nil_r in G.
        unfold piece_group in PG. rewrite TZ, NZ in PG. destruct PG as [PG1 PG2]. rewrite G. exact PG2.
  Qed.

  (** Training keeps the other parts. *)
  Lemma trained_spm g n rep prefix M T special red g' : spm_config P g n rep prefix M [] [] -> g_added g = av_new ->
    tables_ok (pf_norm P) -> sane (pf_pre P) -> NormalizersSpec.usable (norm_of (pf_engines P) n) -> is_scalar rep = true -> Forall text (leaves red) ->
    config_train P by_count pop T special red g = Ok g' ->
    exists wc, counted (training_words (runtime P g)) (leaves red) wc /\ mt_learn (any_teacher by_count pop T special) wc M = Ok (g_model g') /\ spm_config P g' n rep prefix (g_model g') special special.
  Proof.
    intros CF AV HN HT U RS TX TR.
    assert (NP : forall s, In s (leaves red) -> training_words (runtime P g) s <> Panic).
    { intros s IS. rewrite Forall_forall in TX. destruct (spm_training_words g n rep prefix M s CF AV HN HT U RS (TX s IS)) as (ws & -> & _). discriminate. }
    destruct (trained_model P by_count pop _ _ _ _ _ NP TR) as (wc & C & L). rewrite (sg_model _ _ _ _ _ _ _ _ CF) in L. exists wc. split; [exact C|]. split; [exact L|].
    destruct (trained_runtime P by_count pop _ _ _ _ _ TR) as (y & TY & EG). unfold TokenizerTrainModel.train in TY. cbn [te_tokenizer te_model] in TY. destruct (reduce _ _) as [wc'| |] in TY; try discriminate. unfold learn_and_add in TY. cbn [te_tokenizer te_model] in TY.
    destruct (mt_learn _ wc' _) as [m'| |]; try discriminate. cbn [with_model tz_added runtime mt_special any_teacher] in TY. rewrite AV in TY.
    destruct (add_tokens (pf_build P) (model_vocabulary m') _ special av_new) as [av [k|]] eqn:EA; [|discriminate]. injection TY as <-. destruct CF as [A1 A2 A3 A4 A5 A6 A7].
    rewrite EG. constructor; try assumption; try reflexivity.
    cbn [trained_config g_model te_model g_added te_tokenizer with_added tz_added]. eapply (ah_add _ _ _ _ [] []); [apply ah_new|intros f _; exact Logic.I|exact EA].
  Qed.

  (** The words that are counted are parts of what the model sees, and have all its characters. *)
  Lemma counted_words g n rep prefix M red wc : spm_config P g n rep prefix M [] [] -> g_added g = av_new ->
    tables_ok (pf_norm P) -> sane (pf_pre P) -> NormalizersSpec.usable (norm_of (pf_engines P) n) -> is_scalar rep = true -> Forall text (leaves red) ->
    counted (training_words (runtime P g)) (leaves red) wc ->
    let sight s := seen rep prefix (normal_text (pf_norm P) (norm_of (pf_engines P) n) s) in
    (forall w k, In (w, k) wc -> exists s, In s (leaves red) /\ occurs w (sight s)) /\
    (forall s c, In s (leaves red) -> In c (sight s) -> exists w k, In (w, k) wc /\ In c w).
  Proof.
    intros CF AV HN HT U RS TX CO sight.
    assert (WS : forall s, In s (leaves red) -> exists ws x, training_words (runtime P g) s = Ok ws /\ concat ws = x /\ occurs x (sight s) /\ forall c, In c (sight s) -> In c x).
    { intros s IS. rewrite Forall_forall in TX. destruct (spm_training_words g n rep prefix M s CF AV HN HT U RS (TX s IS)) as (ws & E & WO). exists ws, (concat ws). split; [exact E|]. split; [reflexivity|].
      apply meta_sight in WO. exact WO. }
    destruct CO as [_ CO]. split.
    - intros w k IW. apply CO in IW. destruct IW as [EN NZ]. clear CO. assert (NZ' : 0 < occurrences (training_words (runtime P g)) w (leaves red)) by lia. clear NZ EN. rename NZ' into NZ.
      assert (G : exists s ws, In s (leaves red) /\ training_words (runtime P g) s = Ok ws /\ In w ws).
      { clear -NZ WS. induction (leaves red) as [|x l IH]; [cbn in NZ; lia|]. unfold occurrences in *. cbn [map list_sum fold_right] in NZ. destruct (WS x (or_introl eq_refl)) as (ws & y & E & _). rewrite E in NZ.
        destruct (count_occ (list_eq_dec N.eq_dec) ws w) eqn:EC.
        - destruct IH as (s & ws' & I1 & I2 & I3); [intros s Hs; apply WS; right; exact Hs|unfold list_sum in *; lia|]. exists s, ws'. split; [right; exact I1|auto].
        - exists x, ws. split; [left; reflexivity|]. split; [exact E|]. apply (count_occ_In (list_eq_dec N.eq_dec)). lia. }
      destruct G as (s & ws & IS & E & IW). exists s. split; [exact IS|]. destruct (WS s IS) as (ws' & x & E' & CX & OX & _). rewrite E in E'. injection E' as <-. eapply occurs_trans; [|exact OX].
      apply List.in_split in IW. destruct IW as (l1 & l2 & ->). exists (concat l1), (concat l2). rewrite <- CX, concat_app. reflexivity.
    - intros s c IS IC. destruct (WS s IS) as (ws & x & E & CX & _ & H). apply H in IC. rewrite <- CX in IC. apply in_concat in IC. destruct IC as (w & IW & Ic).
      assert (NZ : 0 < occurrences (training_words (runtime P g)) w (leaves red)).
      { clear -IS E IW. induction (leaves red) as [|x l IH]; [destruct IS|]. unfold occurrences in *. cbn [map list_sum fold_right]. destruct IS as [->|IS]; [|specialize (IH IS); unfold list_sum in IH; lia].
        rewrite E. apply (count_occ_In (list_eq_dec N.eq_dec)) in IW. lia. }
      exists w, (N.of_nat (occurrences (training_words (runtime P g)) w (leaves red))). split; [|exact Ic]. apply CO. split; [reflexivity|lia].
  Qed.

  (** *** BPE *)
  Lemma bpe_scratch vocab merges o g : vocab = None \/ merges = None -> spm_bpe_new P vocab merges o = Ok g ->
    exists m rep, so_rep o = [rep] /\ spm_config P g CnNFKC rep (so_prefix o) (MBpe m) [] [] /\ g_added g = av_new /\ b_dropout m <> DOutside.
  Proof.
    intros VN H. unfold spm_bpe_new in H. apply bind_ok in H. destruct H as (m & EM & H).
    assert (FM : exists d mm u f, d <> DOutside /\ m = mkBpe [] (reverse_vocab []) mm d (Some u) None None f false false).
    { assert (EQ : (match vocab, merges with Some v, Some ms => (v, ms) | _, _ => ([], []) end) = ([], [] : list (str * str))) by (destruct VN as [->| ->]; [|destruct vocab]; reflexivity).
      unfold spm_bpe_model in EM. rewrite EQ in EM. destruct (so_unk o) as [u|]; [|discriminate]. destruct (so_fuse o) as [f|]; [|discriminate]. unfold bpe_build in EM.
      destruct (so_dropout o); cbn [build_merges bind boxed] in EM; try discriminate; injection EM as <-; do 4 eexists; (split; [|reflexivity]); discriminate. }
    destruct FM as (d & mm & u & f & ND & FM). cbn [tell_all] in H. unfold tell_special in H. rewrite FM in H. cbn [tokenizer_new g_model g_added model_vocabulary] in H.
    change (tk_token_to_id _ av_new (str_of (so_unk o))) with (@None N) in H. cbn [bind] in H. rewrite <- FM in H.
    apply bind_ok in H. destruct H as (g2 & H2 & H). assert (E2 : g2 = mkConfig (Some CnNFKC) None (MBpe m) None None av_new None None) by (cbn in H2; injection H2 as <-; reflexivity). subst g2.
    destruct (meta_config P (MBpe m) CnNFKC (so_rep o) (so_prefix o) av_new [] g H (ah_new _ _ _)) as (c & EC & CF). exists m, c. split; [exact EC|]. split; [exact CF|]. split; [|rewrite FM; exact ND].
    unfold meta_parts in H. rewrite EC in H. injection H as <-. reflexivity.
  Qed.

  Lemma trained_bpe tr wc m0 m sp : count_sort by_count -> train_heap pop -> small_corpus wc -> b_dropout m0 <> DOutside -> tr_prefix tr = None -> tr_suffix tr = None ->
    do_train by_count pop tr wc m0 = Ok (m, sp) ->
    exists merges al, built (b_vocab m) merges None m /\ b_suffix m = None /\ NoDup (map snd (b_vocab m)) /\ model_ok (bpe_vocabulary m) /\ AddedSpec.dense (bpe_vocabulary m) /\
      kept_alphabet tr wc al /\ (forall c, In c al -> In [c] (map fst (b_vocab m))) /\ (forall x, In x (tr_special tr) -> In x (map fst (b_vocab m))).
  Proof.
    intros HC HQ SC DO TP TS L. destruct (trained_vocab_ok _ _ _ _ _ _ _ HC HQ SC DO L) as [MO DN].
    destruct (run_result _ _ _ _ _ _ _ HC HQ SC L) as (al & st & wtu & st' & PP & E & V & EB).
    destruct (loop_tokens pop _ wc al st wtu _ st' HQ PP E) as (_ & _ & rest & ER & _). pose proof (p_alphabet _ _ _ _ _ PP) as KA. pose proof (p_first _ _ _ _ _ PP) as FT.
    destruct (C37_rebuild by_count pop tr wc m0 HC HQ SC DO) as (m2 & _ & _ & merges & E2 & _ & _ & D1 & D2 & _ & B). rewrite L in E2. injection E2 as <- _.
    assert (VO : vocabulary m (v_words (ts_voc st'))) by (rewrite EB; apply result_vocabulary; apply V).
    assert (PB : b_prefix m = None /\ b_suffix m = None) by (rewrite EB; cbn [result b_prefix b_suffix]; rewrite TP, TS; split; reflexivity). destruct PB as (PB & SB).
    assert (IN : forall t, In t (v_words (ts_voc st)) -> In t (map fst (b_vocab m))).
    { intros t I. assert (I' : In t (v_words (ts_voc st'))) by (rewrite ER; apply in_or_app; left; exact I). apply In_nth_error in I'. destruct I' as (k & Hk).
      apply in_map_iff. exists (t, N.of_nat k). split; [reflexivity|]. apply VO. rewrite Nat2N.id. exact Hk. }
    destruct FT as (extra & EF & _). exists merges, al.
    split; [split; [exact D1|rewrite PB in B; do 6 eexists; exact B]|]. split; [exact SB|]. split; [exact D2|]. split; [exact MO|]. split; [exact DN|]. split; [exact KA|]. split.
    - intros c Ic. apply IN. rewrite EF. apply BpeTrainProofs.distinct_in. apply in_or_app. right. apply in_or_app. left. apply (in_map (fun c => [c])). exact Ic.
    - intros x Ix. apply IN. rewrite EF. apply BpeTrainProofs.distinct_in. apply in_or_app. left. exact Ix.
  Qed.

  (** *** Unigram *)
  Lemma uni_scratch vocab rep prefix g : spm_uni_new P vocab rep prefix = Ok g ->
    exists m c, rep = [c] /\ spm_config P g (CnSequence [CnNmt; CnNFKC; squeeze]) c prefix (MUnigram m) [] [] /\ g_added g = av_new.
  Proof.
    intros H. unfold spm_uni_new in H. apply bind_ok in H. destruct H as (m & _ & H). apply bind_ok in H. destruct H as ([] & _ & H). apply bind_ok in H. destruct H as (g2 & H2 & H).
    assert (E2 : g2 = mkConfig (Some (CnSequence [CnNmt; CnNFKC; squeeze])) None (MUnigram m) None None av_new None None) by (cbn in H2; injection H2 as <-; reflexivity). subst g2.
    destruct (meta_config P (MUnigram m) _ rep prefix av_new [] g H (ah_new _ _ _)) as (c & EC & CF). exists m, c. split; [exact EC|]. split; [exact CF|].
    unfold meta_parts in H. rewrite EC in H. injection H as <-. reflexivity.
  Qed.
End training.

Lemma uni_from_keeps {W} (A : arith W) v u fb m : uni_from A v u fb = Ok m -> u_vocab m = v /\ u_unk m = u /\ (forall k, u = Some k -> (k < N.of_nat (List.length v))%N).
Proof.
  unfold uni_from. destruct (from_loop A 0 v [] TrieModel.tnode0 (a_inf A)) as [[ids trie] mn]. intros H. destruct u as [k|].
  - destruct (is_nil v); [discriminate|]. destruct (N.leb_spec (N.of_nat (List.length v)) k); [discriminate|]. injection H as <-. repeat split. intros j E. injection E as <-. assumption.
  - injection H as <-. repeat split. discriminate.
Qed.
Lemma uni_made {W} (A : arith W) v u fb m : uni_from A v u fb = Ok m -> Forall (fun e => text (fst e)) v -> UnigramSpec.made A m.
Proof. intros H T. exists v, u, fb, m, (u_min m). split; [exact H|]. split; [exact T|]. destruct m; reflexivity. Qed.
Lemma uni_spells_part {W} (P : platform W) ok m x w : UnigramSpec.made (pf_arith P) m -> scores_ok (pf_arith P) ok m -> text x ->
  (forall c, In c x -> In [c] (map fst (u_vocab m))) -> (forall k u, u_unk m = Some k -> uni_id_to_token m k = Some u -> ~ occurs u x) ->
  occurs w x -> spells (model_vocabulary (MUnigram m)) (model_tokenize P (MUnigram m)) w.
Proof.
  intros MD SO TX KC NU OW. apply (uni_spells (pf_arith P) ok); auto.
  - eapply occurs_text; eassumption.
  - intros c Ic. apply KC. eapply occurs_char; eassumption.
  - intros k u E1 E2 O. apply (NU k u E1 E2). eapply occurs_trans; eassumption.
Qed.
