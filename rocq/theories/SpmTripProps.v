(** C70: BPE tokenizers with byte fallback in the manner of SentencePiece. *)
From Verif Require Import Base ListFacts StrBytes Utf8 AMap EncodingModel EncodingSpec NormModel BpeWordModel BpeModel BpeSpec BpeProps PatternModel NormalizersModel NormalizersProps
  ProcessorsModel ProcessorsSpec DecodersModel DecodersSpec DecodersProofs DecodersProps AddedModel AddedSpec AddedProofs AddedProofs2 AddedProofs3 AddedProofs4 AddedProps
  TokenizerModel EndToEndSpec EndToEndProofs EndToEndProps PreTokModel RoundTripModel RoundTripSpec RoundTripProofs SpmTripModel SpmTripSpec SpmTripProofs.

(** Every text can be encoded, and the ids are decoded to the text where every part
    that is not an added token has a space before it, without the first space. *)
Theorem C70_sections : forall t mv offered s ot add,
  spm_bpe t mv offered -> text s ->
  tz_post t = None -> tz_truncation t = None -> tz_padding t = None ->
  exists e l parts, encode t ot (Single (Raw s)) add = Ok e /\
    find_matches (tz_space t) (tz_word t) (tz_added t) s (av_trie (tz_added t)) = Ok l /\ cut_as s l parts /\
    (forall x, In (true, x) parts -> exists tk, In tk offered /\ at_content tk = x) /\
    AddedModel.decode mv (tz_added t) (Some (DecodersModel.decode_tokens spm_decoder)) false (ids e) = Ok (drop_one_space (flat_map shown parts)).
Proof.
  intros t mv offered s ot add (T & pop & vocab & merges & m & draws & build & NF & taken & (HP & BT & NS & FB) & (ND & BY & MK & BA & DN) & (-> & H1 & H2 & H3) & AH & PA) TX Ho Ht Hp.
  assert (NN : Forall (fun t => at_normalized t = false) offered) by (eapply Forall_impl; [|exact PA]; intros x Hx; apply Hx).
  destruct (plain_history _ _ _ _ _ _ AH NN) as (AH' & FO & NT).
  destruct (spm_ids T pop vocab merges m draws build (tz_added t) offered taken HP BT NS FB ND BY MK BA DN AH' FO NT PA t 0%N ot s TX) as [(e & E) (toks & l & parts & D & N & EM & CA & AD & S1 & S2)]; auto.
  exists e, l, parts. split; [|split; [exact EM|split; [exact CA|split; [exact AD|]]]].
  - cbn [encode encode_single]. rewrite E. cbn [other bind]. unfold post_process, truncate_step, process_step, pad_step. rewrite Ho, Ht, Hp. reflexivity.
  - unfold AddedModel.decode. rewrite (D e E), named_tokens by exact N. destruct s as [|c s].
    + destruct (S2 eq_refl) as [-> ->]. reflexivity.
    + rewrite (spm_decodes _ _ (S1 ltac:(discriminate))), wrote_shown. reflexivity.
Qed.

(** A text without marks in which no added token is written comes back. *)
Theorem C70_round_trip : forall t mv offered s ot add,
  spm_bpe t mv offered -> text s -> ~ In mark s -> none_in offered s ->
  tz_post t = None -> tz_truncation t = None -> tz_padding t = None ->
  exists e, encode t ot (Single (Raw s)) add = Ok e /\
    AddedModel.decode mv (tz_added t) (Some (DecodersModel.decode_tokens spm_decoder)) false (ids e) = Ok s.
Proof.
  intros t mv offered s ot add SB TX NM NI Ho Ht Hp. destruct (C70_sections t mv offered s ot add SB TX Ho Ht Hp) as (e & l & parts & E & EM & CA & _ & D).
  exists e. split; [exact E|]. rewrite D.
  destruct SB as (T & pop & vocab & merges & m & draws & build & NF & taken & (HP & BT & NS & FB) & (ND & BY & MK & BA & DN) & (-> & H1 & H2 & H3) & AH & PA).
  assert (NN : Forall (fun t => at_normalized t = false) offered) by (eapply Forall_impl; [|exact PA]; intros x Hx; apply Hx).
  destruct (plain_history _ _ _ _ _ _ AH NN) as (AH' & FO & NT).
  pose proof (tries_history _ _ _ _ _ _ (bpe_model_ok _ _ _ _ BT ND) DN AH') as [T1 _].
  rewrite (no_match _ _ _ offered s FO) in EM; [|intros pats p i EP Hin; apply (T1 _ _ _ EP Hin)|exact NI]. injection EM as <-.
  apply one_section in CA. subst parts. cbn [flat_map shown fst snd app]. rewrite app_nil_r. cbn. rewrite spaced_absent by exact NM. reflexivity.
Qed.

(** With a post-processor that puts special tokens around the text, decoding without
    the special tokens. *)
Theorem C70_special_skipped : forall t mv offered s ot p added,
  spm_bpe t mv offered -> text s -> ~ In mark s -> none_in offered s ->
  Forall (fun tk => at_special tk = true -> ~ In mark (at_content tk)) offered ->
  ot <> ONone -> tz_post t = Some p -> adds_around p added -> Forall (special_id mv (tz_added t)) added ->
  tz_truncation t = None -> tz_padding t = None ->
  exists e, encode t ot (Single (Raw s)) true = Ok e /\
    AddedModel.decode mv (tz_added t) (Some (DecodersModel.decode_tokens spm_decoder)) true (ids e) = Ok s.
Proof.
  intros t mv offered s ot pr added (T & pop & vocab & merges & m & draws & build & NF & taken & (HP & BT & NS & FB) & (ND & BY & MK & BA & DN) & (-> & H1 & H2 & H3) & AH & PA) TX NM NI SM Hot Ho AA SP Ht Hp.
  assert (NN : Forall (fun t => at_normalized t = false) offered) by (eapply Forall_impl; [|exact PA]; intros x Hx; apply Hx).
  destruct (plain_history _ _ _ _ _ _ AH NN) as (AH' & FO & NT).
  pose proof (tries_history _ _ _ _ _ _ (bpe_model_ok _ _ _ _ BT ND) DN AH') as [T1 _].
  destruct (spm_ids T pop vocab merges m draws build (tz_added t) offered taken HP BT NS FB ND BY MK BA DN AH' FO NT PA t 0%N ot s TX) as [(e & E) (toks & l & parts & D & N & EM & CA & _ & S1 & S2)]; auto.
  rewrite (no_match _ _ _ offered s FO) in EM; [|intros pats p i EP Hin; apply (T1 _ _ _ EP Hin)|exact NI]. injection EM as <-. apply one_section in CA. subst parts.
  assert (F : fresh 0 e).
  { destruct (encode_single_plain t (Raw s) 0 ot e Hot E) as [P O]. split; [exact P|]. rewrite O. constructor. }
  destruct (around_decoded (bpe_vocabulary m) (tz_added t) (tz_blank t) pr added e AA F SP) as (out & EO & ED).
  exists out. split.
  - cbn [encode encode_single]. rewrite E. cbn [other bind]. unfold post_process, truncate_step, process_step, pad_step. rewrite Ht, Ho, Hp. cbn [bind fst snd]. rewrite EO. reflexivity.
  - assert (SPL : spelled (map t_value toks) (match s with [] => [] | _ => mark :: swap 32 mark s end)).
    { destruct s as [|c s]; [destruct (S2 eq_refl) as [-> _]; constructor|]. specialize (S1 ltac:(discriminate)). cbn [flat_map wrote fst snd] in S1. rewrite app_nil_r in S1. exact S1. }
    unfold AddedModel.decode. rewrite ED, ordinary_kept.
    + rewrite (D e E), named_tokens by exact N. rewrite (spm_decodes _ _ SPL). f_equal. destruct s as [|c s]; [reflexivity|].
      
      change (swap mark 32 (mark :: swap 32 mark (c :: s))) with (32%N :: swap mark 32 (swap 32 mark (c :: s))). rewrite swap_back by exact NM. reflexivity.
    + rewrite (D e E). apply Forall_map. apply Forall_forall. intros x Hx (c & Hc & Hs). rewrite Forall_forall in N. specialize (N x Hx). unfold token_named in N. rewrite N in Hc. injection Hc as <-.
      unfold av_is_special in Hs. apply str_mem_In in Hs. destruct (special_history _ _ _ _ _ _ AH') as (_ & SH & _). destruct (SH _ Hs) as (tk & I1 & I2 & I3 & I4).
      pose proof (spelled_within _ _ SPL) as W. unfold none_in in NI. rewrite Forall_forall in W, PA, SM, NI.
      specialize (PA tk I1) as (_ & _ & _ & PL). specialize (SM tk I1 I2). specialize (NI tk I1). rewrite I3 in *.
      destruct (W (t_value x)) as [(u & z & EW)|(b & B)]; [apply in_map; exact Hx| |exact (PL b B)].
      destruct NI as [NI|NI]; [congruence|]. apply NI. destruct s as [|c s]; [destruct u, (t_value x); try discriminate; congruence|]. eapply written_in; eauto.
Qed.

(** ** A case *)
Definition ex_spm_vocab : list (str * N) :=
  map (fun b => (byte_token b, b)) (map N.of_nat (seq 0 256)) ++ [([mark], 256%N); ([97%N], 257%N); ([98%N], 258%N); ([mark; 97%N], 259%N)].
Definition ex_spm_merges : list (str * str) := [([mark], [97%N])].
Definition spm_model (vocab : list (str * N)) (merges : list (str * str)) : bpe :=
  match bpe_build vocab merges DNone None None None false true false with
  | Ok m => m
  | _ => mkBpe [] [] [] DNone None None None false false false
  end.
Definition ex_spm : bpe := Eval vm_compute in spm_model ex_spm_vocab ex_spm_merges.
Definition ex_spm_added (m : bpe) (norm : option (str -> option str)) (ts : list added_token) : added_vocab := fst (add_tokens all_ok (bpe_vocabulary m) norm ts av_new).
Definition ex_spm_tokenizer (m : bpe) (post : option processor) (av : added_vocab) : tokenizer :=
  mkTokenizer (fun c => N.eqb c 32) (fun _ => false) (fun c => N.eqb c 32) (run_normalizer ex_tables spm_normalizer) None
    (bpe_model pop_min m (fun _ => no_draw)) post av None None.
Definition raw_s : added_token := mkAdded [60; 115; 62]%N false false false false true.

Lemma ex_spm_bpe ts post : Forall plain_added ts -> (exists n, snd (add_tokens all_ok (bpe_vocabulary ex_spm) None ts av_new) = Some n) ->
  spm_bpe (ex_spm_tokenizer ex_spm post (ex_spm_added ex_spm None ts)) (bpe_vocabulary ex_spm) ([] ++ ts).
Proof.
  intros PL (n & A). exists ex_tables, pop_min, ex_spm_vocab, ex_spm_merges, ex_spm, (fun _ => no_draw), all_ok, no_norm, ([] ++ ts).
  assert (V : b_vocab ex_spm = ex_spm_vocab) by (vm_compute; reflexivity).
  split; [|split; [|split]].
  - split; [exact pop_min_ok|]. split; [split; [apply (nodup_check str_eqb); [apply str_eqb_eq|vm_compute; reflexivity]|exists DNone, None, None, false, true, false; vm_compute; reflexivity]|].
    split; vm_compute; reflexivity.
  - split; [apply (nodup_check N.eqb); [apply N.eqb_eq|vm_compute; reflexivity]|]. split; [|split; [|split]].
    + intros b L. unfold ex_spm_vocab. rewrite map_app, map_map. apply in_or_app. left. apply in_map_iff. exists b. split; [reflexivity|].
      apply in_map_iff. exists (N.to_nat b). split; [lia|]. apply in_seq. lia.
    + unfold ex_spm_vocab. rewrite map_app. apply in_or_app. right. left. reflexivity.
    + intros a b [E|[]] x. injection E as <- <-. repeat split; intros B; inversion B.
    + intros t i H. cbn [bpe_vocabulary mv_token_to_id mv_size] in *. unfold b_id in H. rewrite V in *. apply (aget_In str_eqb str_eqb_eq) in H.
      assert (G : forallb (fun x : str * N => N.ltb (snd x) (N.of_nat (length ex_spm_vocab))) ex_spm_vocab = true) by (vm_compute; reflexivity).
      rewrite forallb_forall in G. specialize (G _ H). cbn [snd] in G. lia.
  - repeat split; reflexivity.
  - split; [|exact PL]. cbn [ex_spm_tokenizer tz_added]. unfold ex_spm_added.
    apply (ah_add all_ok (bpe_vocabulary ex_spm) no_norm av_new [] [] None ts _ n); [apply ah_new|intros f H; discriminate H|].
    destruct (add_tokens all_ok (bpe_vocabulary ex_spm) None ts av_new) as [av' r]. cbn [fst snd] in *. rewrite A. reflexivity.
Qed.

Example C70_example :
  spm_bpe (ex_spm_tokenizer ex_spm None (ex_spm_added ex_spm None [raw_s])) (bpe_vocabulary ex_spm) [raw_s] /\
  none_in [raw_s] [97; 32; 233; 98]%N /\ ~ In mark [97; 32; 233; 98]%N /\
  exists e, encode (ex_spm_tokenizer ex_spm None (ex_spm_added ex_spm None [raw_s])) OChar (Single (Raw [97; 32; 233; 98]%N)) false = Ok e /\
    ids e = [259; 256; 195; 169; 258]%N.
Proof.
  split; [|split; [|split; [|eexists; split; [vm_compute; reflexivity|reflexivity]]]].
  - apply (ex_spm_bpe [raw_s]); [|eexists; vm_compute; reflexivity]. constructor; [|constructor]. repeat split. intros b B. inversion B.
  - constructor; [|constructor]. right. intros (u & v & E). destruct u as [|x0 [|x1 [|x2 [|x3 u]]]]; try discriminate. destruct u; discriminate.
  - unfold mark. intros H. cbn [In] in H. repeat (destruct H as [H|H]; [discriminate|]). exact H.
Qed.

Definition ex_spm_builder : template_builder :=
  mkBuilder (Some [PSpecial [60; 115; 62]%N 0; PSeq SeqA 0]) (Some [PSeq SeqA 0; PSeq SeqB 1])
            (Some [([60; 115; 62]%N, mkSpecial [260%N] [[60; 115; 62]%N])]).
Definition ex_spm_template : template := match ProcessorsModel.build ex_spm_builder with Ok t => t | _ => mkTemplate [] [] 0 0 [] end.

Example C70_special_example :
  adds_around (PTemplate ex_spm_template) [260%N] /\ special_id (bpe_vocabulary ex_spm) (ex_spm_added ex_spm None [raw_s]) 260%N /\
  exists e, encode (ex_spm_tokenizer ex_spm (Some (PTemplate ex_spm_template)) (ex_spm_added ex_spm None [raw_s])) OByte (Single (Raw [97; 32; 233]%N)) true = Ok e /\
    ids e = [260; 259; 256; 195; 169]%N.
Proof.
  split; [|split; [exists [60; 115; 62]%N; split; vm_compute; reflexivity|]].
  - apply (aa_template ex_spm_builder ex_spm_template [Added [([60; 115; 62]%N, 260%N)] 0; Input 0 0]); try reflexivity.
    + intros n sp [H|[]]. injection H as <- <-. reflexivity.
    + left. reflexivity.
  - eexists. split; [vm_compute; reflexivity|reflexivity].
Qed.

(** ** What the conditions exclude *)
Definition spm_decode (m : bpe) (av : added_vocab) (ids : list N) : res unit str := AddedModel.decode (bpe_vocabulary m) av (Some (DecodersModel.decode_tokens spm_decoder)) false ids.

(** An added token in the middle: "a<s>b" becomes "a<s> b". *)
Theorem C70_added_refuted : exists e,
  encode (ex_spm_tokenizer ex_spm None (ex_spm_added ex_spm None [raw_s])) OByte (Single (Raw [97; 60; 115; 62; 98]%N)) false = Ok e /\
  spm_decode ex_spm (ex_spm_added ex_spm None [raw_s]) (ids e) = Ok [97; 60; 115; 62; 32; 98]%N.
Proof. eexists. split; [vm_compute; reflexivity|vm_compute; reflexivity]. Qed.

(** A mark written in the text is decoded to a space. *)
Theorem C70_mark_refuted : exists e,
  encode (ex_spm_tokenizer ex_spm None av_new) OByte (Single (Raw [97; mark; 98]%N)) false = Ok e /\
  spm_decode ex_spm av_new (ids e) = Ok [97; 32; 98]%N.
Proof. eexists. split; [vm_compute; reflexivity|vm_compute; reflexivity]. Qed.

(** When the mark has no token of its own, it is spelled with its bytes, which the
    decoder reads after it has replaced the marks: "a" becomes "▁a". *)
Definition markless : bpe := Eval vm_compute in spm_model (map (fun b => (byte_token b, b)) (map N.of_nat (seq 0 256)) ++ [([97%N], 256%N)]) [].
Theorem C70_no_mark_refuted : exists e,
  encode (ex_spm_tokenizer markless None av_new) OByte (Single (Raw [97]%N)) false = Ok e /\
  spm_decode markless av_new (ids e) = Ok [mark; 97%N].
Proof. eexists. split; [vm_compute; reflexivity|vm_compute; reflexivity]. Qed.

(** Byte tokens merged with each other are decoded as they are written: "é" becomes
    "<0xC3><0xA9>". *)
Definition merging : bpe := Eval vm_compute in
  spm_model (map (fun b => (byte_token b, b)) (map N.of_nat (seq 0 256)) ++ [([mark], 256%N); (byte_token 195 ++ byte_token 169, 257%N)]) [(byte_token 195, byte_token 169)].
Theorem C70_merged_bytes_refuted : exists e,
  encode (ex_spm_tokenizer merging None av_new) OByte (Single (Raw [233]%N)) false = Ok e /\
  spm_decode merging av_new (ids e) = Ok (byte_token 195 ++ byte_token 169).
Proof. eexists. split; [vm_compute; reflexivity|vm_compute; reflexivity]. Qed.

(** Characters merged to the name of a byte are decoded to this byte: "<0x41>"
    becomes "A". *)
Definition spelling : bpe := Eval vm_compute in
  spm_model (map (fun b => (byte_token b, b)) (map N.of_nat (seq 0 256)) ++
    [([mark], 256%N); ([60%N], 257%N); ([48%N], 258%N); ([120%N], 259%N); ([52%N], 260%N); ([49%N], 261%N); ([62%N], 262%N);
     ([60; 48]%N, 263%N); ([60; 48; 120]%N, 264%N); ([60; 48; 120; 52]%N, 265%N); ([60; 48; 120; 52; 49]%N, 266%N)])
    [([60]%N, [48]%N); ([60; 48]%N, [120]%N); ([60; 48; 120]%N, [52]%N); ([60; 48; 120; 52]%N, [49]%N); ([60; 48; 120; 52; 49]%N, [62]%N)].
Theorem C70_written_byte_refuted : exists e,
  encode (ex_spm_tokenizer spelling None av_new) OByte (Single (Raw (byte_token 65))) false = Ok e /\
  spm_decode spelling av_new (ids e) = Ok [65]%N.
Proof. eexists. split; [vm_compute; reflexivity|vm_compute; reflexivity]. Qed.

(** An added token searched in the normalized text is searched with a mark before
    it: "a <s>" uses it, "a<s>" does not. *)
Definition norm_s : added_token := mkAdded [60; 115; 62]%N false false false true false.
Definition spm_content (c : str) : option str := Some (n_normalized (run_normalizer ex_tables spm_normalizer (nfrom c))).
Theorem C70_normalized_missed_refuted : exists e e',
  encode (ex_spm_tokenizer ex_spm None (ex_spm_added ex_spm (Some spm_content) [norm_s])) OByte (Single (Raw [97; 32; 60; 115; 62]%N)) false = Ok e /\
  encode (ex_spm_tokenizer ex_spm None (ex_spm_added ex_spm (Some spm_content) [norm_s])) OByte (Single (Raw [97; 60; 115; 62]%N)) false = Ok e' /\
  ids e = [259; 260]%N /\ ids e' = [259; 60; 115; 62]%N.
Proof. eexists. eexists. split; [vm_compute; reflexivity|split; [vm_compute; reflexivity|split; reflexivity]]. Qed.

(** A special token that contains the mark and is also a token of the model is
    dropped where the text needs it: "a" becomes "". *)
Definition mark_a : added_token := mkAdded [mark; 97]%N false false false false true.
Theorem C70_special_mark_refuted : none_in [mark_a] [97]%N /\ exists e,
  encode (ex_spm_tokenizer ex_spm None (ex_spm_added ex_spm None [mark_a])) OByte (Single (Raw [97]%N)) true = Ok e /\
  AddedModel.decode (bpe_vocabulary ex_spm) (ex_spm_added ex_spm None [mark_a]) (Some (DecodersModel.decode_tokens spm_decoder)) true (ids e) = Ok [].
Proof.
  split.
  - constructor; [|constructor]. right. intros (u & v & E). destruct u as [|x0 u]; [discriminate|]. destruct u; discriminate.
  - eexists. split; [vm_compute; reflexivity|vm_compute; reflexivity].
Qed.
