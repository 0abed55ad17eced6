(** C96: the ready-made byte-level tokenizer of the Python package loses no text. *)
From Coq Require Import String.
From Verif Require Import Base ListFacts StrBytes Utf8 AMap EncodingModel NormModel BpeWordModel BpeWordSpec BpeModel BpeSpec BpeProps BpeTrainModel BpeTrainSpec BpeTrainProps TrainersModel
  ByteLevelModel DecodersModel DecodersSpec AddedModel AddedSpec AddedProofs2 AddedProps PreTokModel PreTokenizersModel PreTokenizersSpec PreTokenizersProps TokenizerModel
  RoundTripModel RoundTripSpec RoundTripProps ModelFilesModel ModelFilesSpec ComponentFilesModel ComponentFilesSpec TokenizerFilesModel TokenizerFilesSpec TokenizerFilesProps
  TokenizerTrainModel TokenizerTrainSpec TokenizerTrainProofs TokenizerTrainProps TrainSaveModel TrainSaveProps PySettingsModel ImplModel ImplSpec ImplProofs.

From Verif Require ModelFilesProps ComponentFilesProps NormalizersProps.

Section lossless.
  Context {W : Type} (P : platform W).

  (** Given a vocabulary with a token for every byte, its merges, and options that
      change no text; then tokens are added. *)
  Theorem C96_given vocab merges o g ts g' s : sane (pf_pre P) -> heap_ok (pf_pop P) ->
    byte_level_new P (Some vocab) (Some merges) o = Ok g -> plain_options o ->
    NoDup (map fst vocab) -> NoDup (map snd vocab) -> full_alphabet vocab -> (forall t i, In (t, i) vocab -> (i < N.of_nat (List.length vocab))%N) ->
    extended P g ts g' -> consistent ts -> faithful_tokens ts -> text s ->
    keeps P g' s /\ (no_special_in ts s -> keeps_skipping P g' s).
  Proof.
    intros HT HP H PO K1 K2 FA LT X CO FT TX. destruct (given_config P _ _ _ _ PO H K1 K2 FA LT) as (m & C).
    pose proof (config_extended P _ _ _ _ _ C X) as C'. cbn [app] in C'. split; [eapply config_keeps; eauto|]. intros NO. eapply config_skips; eauto.
  Qed.

  Context (by_count : list (char * N) -> list (char * N)) (pop : list tmerge -> option (tmerge * list tmerge)).
  Context (HC : count_sort by_count) (HQ : train_heap pop).

  (** Trained on any texts, with any size, frequency and special tokens, whatever its
      vocabulary was before; then tokens are added. *)
  Theorem C96_trained vocab merges o g vocab_size min_frequency heap items heap' special texts g1 ts g' s : sane (pf_pre P) -> heap_ok (pf_pop P) ->
    byte_level_new P vocab merges o = Ok g -> plain_options o ->
    Forall text (leaves texts) -> (5 * N.of_nat (total_bytes (leaves texts)) < 2 ^ 31)%N ->
    collect true heap items = (heap', Ok special) -> byte_level_train P by_count pop vocab_size min_frequency heap items texts g = Ok g1 ->
    extended P g1 ts g' -> consistent (special ++ ts) -> faithful_tokens (special ++ ts) -> text s ->
    keeps P g' s /\ (no_special_in (special ++ ts) s -> keeps_skipping P g' s).
  Proof.
    intros HT HP H PO TX SM CL TR X CO FT TS. unfold byte_level_train in TR. rewrite CL in TR.
    destruct (trained_config_ok P by_count pop HT HC HQ _ _ _ _ _ _ _ _ _ PO H TX SM TR) as (m & C).
    pose proof (config_extended P _ _ _ _ _ C X) as C'. split; [eapply config_keeps; eauto|]. intros NO. eapply config_skips; eauto.
  Qed.

  (** Training ends well, when the builder of the automaton takes all lists of distinct patterns. *)
  Theorem C96_trains vocab merges o g vocab_size min_frequency heap items heap' special texts : sane (pf_pre P) ->
    (forall l, NoDup (map fst l) -> pf_build P l = true) -> byte_level_new P vocab merges o = Ok g -> plain_options o ->
    Forall text (leaves texts) -> (5 * N.of_nat (total_bytes (leaves texts)) < 2 ^ 31)%N ->
    collect true heap items = (heap', Ok special) -> exists g1, byte_level_train P by_count pop vocab_size min_frequency heap items texts g = Ok g1.
  Proof.
    intros HT HB H PO TX SM CL. destruct (new_plain P _ _ _ _ PO H) as (m0 & EM & ->). pose proof (model_dropout _ _ _ _ EM) as DO. unfold byte_level_train. rewrite CL. unfold config_train.
    assert (HW : forall s, In s (leaves texts) -> exists ws, training_words (runtime P (constructed m0 o)) s = Ok ws).
    { intros s IS. rewrite Forall_forall in TX. destruct (words_image P m0 o s HT (TX s IS)) as (ws & -> & _). eauto. }
    assert (NP : forall s, In s (leaves texts) -> training_words (runtime P (constructed m0 o)) s <> Panic) by (intros s IS; destruct (HW s IS) as (ws & ->); discriminate).
    unfold train. cbn [te_tokenizer]. destruct (reduce (training_words (runtime P (constructed m0 o))) texts) as [wc|e|] eqn:E.
    - pose proof (reduce_counted _ _ _ NP E) as C. unfold learn_and_add. cbn [mt_learn any_teacher te_model constructed g_model].
      assert (SC : small_corpus wc) by (unfold small_corpus; pose proof (counted_bound P m0 o (leaves texts) wc HT TX C); lia).
      destruct (C37_rebuild by_count pop (byte_level_trainer vocab_size min_frequency special) wc m0 HC HQ SC DO) as (m' & toks & ms & mg & ED & _). destruct (trained_vocab_ok _ _ _ _ _ _ _ HC HQ SC DO ED) as [MO DN]. rewrite ED. cbn [bind mt_special any_teacher tz_added with_model te_tokenizer].
      destruct (add_distinct (pf_build P) (bpe_vocabulary m') special MO DN HB) as (av' & n & EA). cbn [model_vocabulary runtime constructed norm_fun g_normalizer option_map tz_added g_added]. rewrite EA. eauto.
    - exfalso. destruct (proj1 (C39_fails _ _ NP)) as (s & e' & Hs & X); [eauto|]. destruct (HW s Hs) as (ws & Y). congruence.
    - exfalso. exact (reduce_fine _ _ NP E).
  Qed.

  (** Saved as JSON and loaded, it still loses nothing. *)
  Theorem C96_saved vocab merges o g vocab_size min_frequency heap items heap' special texts g1 : sane (pf_pre P) -> heap_ok (pf_pop P) -> platform_ok P ->
    byte_level_new P vocab merges o = Ok g -> plain_options o ->
    Forall text (leaves texts) -> (5 * N.of_nat (total_bytes (leaves texts)) < 2 ^ 31)%N ->
    collect true heap items = (heap', Ok special) -> byte_level_train P by_count pop vocab_size min_frequency heap items texts g = Ok g1 ->
    consistent special -> faithful_tokens special -> ids_below g1 ->
    exists j, tokenizer_to_json P g1 = Ok j /\ forall j', rearranged j j' ->
      exists g2, tokenizer_of_json P j' = Ok g2 /\ forall s, text s -> keeps P g2 s /\ (no_special_in special s -> keeps_skipping P g2 s).
  Proof.
    intros HT HP OK H PO TX SM CL TR CO FT IB. unfold byte_level_train in TR. rewrite CL in TR.
    destruct (trained_config_ok P by_count pop HT HC HQ _ _ _ _ _ _ _ _ _ PO H TX SM TR) as (m & C).
    destruct (new_plain P _ _ _ _ PO H) as (m0 & EM & ->).
    destruct (C80_bpe P by_count pop (byte_level_trainer vocab_size min_frequency special) special texts m0 (constructed m0 o) g1 HC HQ) as (j & EJ & X); try assumption.
    - split; reflexivity.
    - eapply model_dropout; eauto.
    - apply constructed_made.
    - unfold parts_valid, constructed. cbn. repeat split. intros i t E. discriminate E.
    - intros s IS. rewrite Forall_forall in TX. destruct (words_image P m0 o s HT (TX s IS)) as (ws & -> & _). discriminate.
    - intros wc CW. unfold small_corpus. pose proof (counted_bound P m0 o (leaves texts) wc HT TX CW). lia.
    - exists j. split; [exact EJ|]. intros j' R. destruct (X j' R) as (g2 & E2 & SA). exists g2. split; [exact E2|]. intros s TS.
      assert (C' : byte_level_config P (encode_special_tokens g1 false) m special).
      { pose proof (config_extended P _ _ _ _ _ C (ex_switch P g1 [] g1 false (ex_same P g1))) as Y. rewrite app_nil_r in Y. exact Y. }
      split; [|intros NO]; intros ot add.
      + destruct (config_keeps P HT HP _ _ _ s C' CO FT TS ot add) as (e & E & D). exists e. rewrite (sa_encode _ _ _ SA), (sa_decode _ _ _ SA). auto.
      + destruct (config_skips P HT HP _ _ _ s C' CO FT NO TS ot add) as (e & E & D). exists e. rewrite (sa_encode _ _ _ SA), (sa_decode _ _ _ SA). auto.
  Qed.
End lossless.

(** ** Options without effect, and refusals *)
(** Without a vocabulary and merges, the dropout and the affixes are forgotten. *)
Theorem C96_forgotten {W} (P : platform W) o d p q :
  byte_level_new P None None (mkBlOptions (bo_add_prefix_space o) (bo_lowercase o) d (bo_unicode o) p q (bo_trim_offsets o)) = byte_level_new P None None o.
Proof. reflexivity. Qed.
(** A vocabulary without merges, or merges without a vocabulary, are left out without an error. *)
Theorem C96_half_given {W} (P : platform W) o : (forall vocab, byte_level_new P (Some vocab) None o = byte_level_new P None None o) /\
  (forall merges, byte_level_new P None (Some merges) o = byte_level_new P None None o).
Proof. split; reflexivity. Qed.
(** A name of a normalizer that is neither empty nor one of the four is refused. *)
Theorem C96_unknown {W} (P : platform W) vocab merges o name g : bo_unicode o = Some name -> byte_level_new P vocab merges o = Ok g ->
  name = [] \/ In name (map key ["nfc"; "nfd"; "nfkc"; "nfkd"]%string).
Proof.
  intros E H. unfold byte_level_new in H. apply bind_ok in H. destruct H as (m & _ & H). apply bind_ok in H. destruct H as (ns & H & _).
  unfold byte_level_normalizers in H. rewrite E in H. destruct name as [|c name]; [left; reflexivity|right]. unfold unicode_normalizer in H.
  destruct (str_eqb (c :: name) (key "nfc")) eqn:E1; [apply str_eqb_eq in E1; rewrite E1; cbn; auto|].
  destruct (str_eqb (c :: name) (key "nfd")) eqn:E2; [apply str_eqb_eq in E2; rewrite E2; cbn; auto|].
  destruct (str_eqb (c :: name) (key "nfkc")) eqn:E3; [apply str_eqb_eq in E3; rewrite E3; cbn; auto|].
  destruct (str_eqb (c :: name) (key "nfkd")) eqn:E4; [apply str_eqb_eq in E4; rewrite E4; cbn; auto|discriminate].
Qed.

(** ** Examples and findings *)
Definition bl_platform : platform Z :=
  mkPlatform ModelFilesProps.z_arith ModelFilesProps.z_floats ModelFilesProps.sort_rank (fun l => l) ComponentFilesProps.ex_engines NormalizersProps.ex_tables PreTokenizersProps.toy_tables
    (N.eqb 32) (fun c => (97 <=? c)%N && (c <=? 122)%N) (N.eqb 32) TokenizerFilesProps.distinct pop_min (fun _ _ => false).
Definition bl_items : list item := [ItStr [60; 115; 62]%N].
Definition bl_texts : reduction str := RNode (RLeaf [97; 233; 32; 97; 233]%N) (RLeaf [97; 233]%N).

Lemma bl_platform_ok : platform_ok bl_platform.
Proof. destruct ex_platform_ok as [A B C D E]. constructor; assumption. Qed.
Lemma bl_builds l : NoDup (map fst l) -> pf_build bl_platform l = true.
Proof. apply TokenizerFilesProps.distinct_nodup. Qed.

Lemma small_ids (g : config Z) m : g_model g = MBpe m -> forallb (fun x : str * N => N.ltb (snd x) 1000) (b_vocab m ++ av_map (g_added g)) = true -> ids_below g.
Proof.
  intros EM F. rewrite forallb_forall in F.
  assert (X : forall t i, In (t, i) (b_vocab m ++ av_map (g_added g)) -> (i < 2 ^ 32 - 1)%N).
  { intros t i H. apply F in H. cbn [snd] in H. apply N.ltb_lt in H. etransitivity; [exact H|reflexivity]. }
  unfold ids_below, ids_fit. rewrite EM. split; intros t i H.
  - unfold tk_token_to_id, av_token_to_id in H. destruct (aget str_eqb t (av_map (g_added g))) as [j|] eqn:E.
    + injection H as ->. apply (X t). apply in_or_app. right. apply (aget_In str_eqb str_eqb_eq). exact E.
    + apply (X t). apply in_or_app. left. apply (aget_In str_eqb str_eqb_eq). exact H.
  - apply (X t). apply in_or_app. left. exact H.
Qed.

Example C96_trained_example : sane (pf_pre bl_platform) /\ heap_ok (pf_pop bl_platform) /\ plain_options bl_defaults /\
  Forall text (leaves bl_texts) /\ (5 * N.of_nat (total_bytes (leaves bl_texts)) < 2 ^ 31)%N /\
  consistent [AddedProps.special_token [60; 115; 62]%N] /\ faithful_tokens [AddedProps.special_token [60; 115; 62]%N] /\
  collect true [] bl_items = ([], Ok [AddedProps.special_token [60; 115; 62]%N]) /\
  exists g g1 e, byte_level_new bl_platform None None bl_defaults = Ok g /\ byte_level_train bl_platform sort_count pop_first 261 2 [] bl_items bl_texts g = Ok g1 /\
    encode (runtime bl_platform g1) OChar (Single (Raw [97; 233; 60; 115; 62; 8364]%N)) true = Ok e /\ ids_below g1 /\ ids e = [258; 0; 159; 225; 106]%N.
Proof.
  split; [exact toy_sane|]. split; [exact pop_min_ok|]. split; [repeat split|]. split; [repeat constructor|]. split; [vm_compute; reflexivity|].
  split; [intros t u [<-|[]] [<-|[]] _; reflexivity|]. split.
  { intros t [<-|[]] _. split; [reflexivity|]. split; [reflexivity|]. split; [repeat constructor|]. left. repeat (apply Forall_cons; [lia|]). constructor. }
  split; [reflexivity|]. eexists _, _, _. split; [vm_compute; reflexivity|]. split; [vm_compute; reflexivity|]. split; [vm_compute; reflexivity|]. split; [|vm_compute; reflexivity].
  eapply small_ids; [reflexivity|]. vm_compute. reflexivity.
Qed.

Definition bl_given (o : bl_options) : res unit (config Z) := byte_level_new bl_platform (Some RoundTripProps.ex_vocab) (Some RoundTripProps.ex_merges) o.
Definition bl_trip (g : config Z) (skip : bool) (s : str) : res unit str :=
  let! e := boxed (encode (runtime bl_platform g) OChar (Single (Raw s)) true) in decode_ids bl_platform g skip (ids e).
Definition bl_s : added_token := AddedProps.special_token [60; 115; 62]%N.
Definition bl_e : added_token := mkAdded [233]%N false false false false false.

Example C96_given_example : plain_options bl_defaults /\ NoDup (map fst RoundTripProps.ex_vocab) /\ NoDup (map snd RoundTripProps.ex_vocab) /\ full_alphabet RoundTripProps.ex_vocab /\
  (forall t i, In (t, i) RoundTripProps.ex_vocab -> (i < N.of_nat (List.length RoundTripProps.ex_vocab))%N) /\
  exists g g', bl_given bl_defaults = Ok g /\ extended bl_platform g [bl_s] g' /\ bl_trip g' false [32; 233; 60; 115; 62]%N = Ok [32; 233; 60; 115; 62]%N.
Proof.
  split; [repeat split|]. split; [apply (nodup_check str_eqb); [apply str_eqb_eq|vm_compute; reflexivity]|]. split; [apply (nodup_check N.eqb); [apply N.eqb_eq|vm_compute; reflexivity]|].
  split; [exact RoundTripProps.ex_alphabet|]. split.
  { intros t i H. assert (G : forallb (fun x : str * N => N.ltb (snd x) (N.of_nat (List.length RoundTripProps.ex_vocab))) RoundTripProps.ex_vocab = true) by (vm_compute; reflexivity).
    rewrite forallb_forall in G. specialize (G _ H). cbn [snd] in G. lia. }
  eexists _, _. split; [vm_compute; reflexivity|]. split; [eapply (ex_add _ _ []); [apply ex_same|vm_compute; reflexivity]|]. vm_compute. reflexivity.
Qed.

(** A prefix space is written into the text, and stays there. *)
Theorem C96_space_refuted : exists g, bl_given (mkBlOptions true false DNone None None None false) = Ok g /\ bl_trip g false [97]%N = Ok [32; 97]%N.
Proof. eexists. split; [vm_compute; reflexivity|]. vm_compute. reflexivity. Qed.
(** The suffix for the end of words is no text, but the decoder gives it back as text. *)
Theorem C96_suffix_refuted : exists g, byte_level_new bl_platform (Some (RoundTripProps.ex_vocab ++ [([97; 60; 47; 119; 62]%N, 258%N)])) (Some RoundTripProps.ex_merges)
    (mkBlOptions false false DNone None None (Some [60; 47; 119; 62]%N) false) = Ok g /\ bl_trip g false [97]%N = Ok [97; 60; 47; 119; 62]%N.
Proof. eexists. split; [vm_compute; reflexivity|]. vm_compute. reflexivity. Qed.
(** Decoding by default drops what the text itself spells as a special token. *)
Theorem C96_special_refuted : exists g g', bl_given bl_defaults = Ok g /\ extended bl_platform g [bl_s] g' /\ bl_trip g' true [97; 60; 115; 62; 98]%N = Ok [97; 98]%N.
Proof. eexists _, _. split; [vm_compute; reflexivity|]. split; [eapply (ex_add _ _ []); [apply ex_same|vm_compute; reflexivity]|]. vm_compute. reflexivity. Qed.
(** An added token of characters that also stand for bytes is decoded as those bytes:
    "é", added and read in the text, comes back as U+FFFD. *)
Theorem C96_added_refuted : exists g g', bl_given bl_defaults = Ok g /\ extended bl_platform g [bl_e] g' /\ bl_trip g' false [97; 233; 98]%N = Ok [97; 65533; 98]%N.
Proof. eexists _, _. split; [vm_compute; reflexivity|]. split; [eapply (ex_add _ _ []); [apply ex_same|vm_compute; reflexivity]|]. vm_compute. reflexivity. Qed.
(** Lowercasing is not undone. *)
Theorem C96_lower_refuted : exists g, bl_given (mkBlOptions false true DNone None None None false) = Ok g /\ bl_trip g false [65]%N = Ok [97]%N.
Proof. eexists. split; [vm_compute; reflexivity|]. vm_compute. reflexivity. Qed.
