(** C69: byte-level BPE tokenizers lose nothing. *)
From Verif Require Import Base ListFacts StrBytes Utf8 AMap EncodingModel EncodingSpec NormModel BpeWordModel BpeModel BpeSpec BpeProps
  ProcessorsModel ProcessorsSpec DecodersModel DecodersSpec DecodersProps AddedModel AddedSpec AddedProps
  PreTokenizersModel PreTokenizersSpec PreTokenizersProps TokenizerModel EndToEndSpec EndToEndProofs EndToEndProps PreTokModel RoundTripModel RoundTripSpec RoundTripProofs.

(** Every text can be encoded (with offsets in bytes, in characters, or none), and
    the ids are decoded to exactly this text. *)
Theorem C69_round_trip : forall t mv s ot add,
  byte_level_bpe t mv -> text s ->
  tz_post t = None -> tz_truncation t = None -> tz_padding t = None ->
  exists e, encode t ot (Single (Raw s)) add = Ok e /\
    AddedModel.decode mv (tz_added t) (Some (DecodersModel.decode_tokens DByteLevel)) false (ids e) = Ok s.
Proof.
  intros t mv s ot add (T & p & pop & vocab & merges & m & draws & build & offered & taken & (HT & HU & HL & HP) & (BT & NS & ND & FA & DN) & (-> & H1 & H2 & H3) & AH & FT) TX Ho Ht Hp.
  destruct (text_ids T p pop vocab merges m draws build (tz_added t) offered taken HT HU HL HP BT NS ND FA DN AH FT (tz_space t) (tz_word t) t 0%N ot s TX) as [(e & E) D]; auto.
  exists e. split.
  - cbn [encode encode_single]. rewrite E. cbn [other bind]. unfold post_process, truncate_step, process_step, pad_step. rewrite Ho, Ht, Hp. reflexivity.
  - destruct (D e E) as (toks & E1 & N & blocks & outs & V & C & F). unfold AddedModel.decode. rewrite E1, named_tokens by exact N. rewrite V, <- C. apply C47_decode. exact F.
Qed.

(** With a post-processor that puts special tokens around the text, and decoding
    without the special tokens: the text comes back, unless special tokens were
    written in it. *)
Theorem C69_special_skipped : forall t mv s ot p added,
  byte_level_bpe t mv -> text s -> ot <> ONone ->
  tz_post t = Some p -> adds_around p added -> Forall (special_id mv (tz_added t)) added ->
  tz_truncation t = None -> tz_padding t = None ->
  (forall e, encode_single t (Raw s) 0 ot = Ok e -> Forall (fun i => ~ special_id mv (tz_added t) i) (ids e)) ->
  exists e, encode t ot (Single (Raw s)) true = Ok e /\
    AddedModel.decode mv (tz_added t) (Some (DecodersModel.decode_tokens DByteLevel)) true (ids e) = Ok s.
Proof.
  intros t mv s ot pr added (T & p & pop & vocab & merges & m & draws & build & offered & taken & (HT & HU & HL & HP) & (BT & NS & ND & FA & DN) & (-> & H1 & H2 & H3) & AH & FT) TX Hot Ho AA SP Ht Hp OR.
  destruct (text_ids T p pop vocab merges m draws build (tz_added t) offered taken HT HU HL HP BT NS ND FA DN AH FT (tz_space t) (tz_word t) t 0%N ot s TX) as [(e & E) D]; auto.
  assert (F : fresh 0 e).
  { destruct (encode_single_plain t (Raw s) 0 ot e Hot E) as [P O]. split; [exact P|]. rewrite O. constructor. }
  destruct (around_decoded (bpe_vocabulary m) (tz_added t) (tz_blank t) pr added e AA F SP) as (out & EO & ED).
  exists out. split.
  - cbn [encode encode_single]. rewrite E. cbn [other bind]. unfold post_process, truncate_step, process_step, pad_step. rewrite Ht, Ho, Hp. cbn [bind fst snd]. rewrite EO. reflexivity.
  - destruct (D e E) as (toks & E1 & N & blocks & outs & V & C & FB). unfold AddedModel.decode. rewrite ED, ordinary_kept by (apply OR; exact E).
    rewrite E1, named_tokens by exact N. rewrite V, <- C. apply C47_decode. exact FB.
Qed.

(** ** A case *)
Definition all_bytes : list N := map N.of_nat (seq 0 256).
Definition ex_vocab : list (str * N) := map (fun b => ([DecodersSpec.byte_char b], b)) all_bytes ++ [([195; 169]%N, 256%N); ([288; 195; 169]%N, 257%N)].
Definition ex_merges : list (str * str) := [([195%N], [169%N]); ([288%N], [195; 169]%N)].
Definition ex_bpe : bpe := Eval vm_compute in
  match bpe_build ex_vocab ex_merges DNone None None None false false false with
  | Ok m => m
  | _ => mkBpe [] [] [] DNone None None None false false false
  end.
Definition ex_added (ts : list added_token) : added_vocab := fst (add_tokens all_ok (bpe_vocabulary ex_bpe) None ts av_new).
Definition ex_tokenizer (p : pre_tokenizer) (ts : list added_token) (post : option processor) : tokenizer :=
  mkTokenizer (fun c => N.eqb c 32) (fun _ => false) (fun c => N.eqb c 32) (fun ns => ns) (Some (pre_tokenize toy_tables p))
    (bpe_model pop_min ex_bpe (fun _ => no_draw)) post (ex_added ts) None None.
Definition ex_s : added_token := special_token [60; 115; 62]%N.
Definition ex_digits : pre_tokenizer := PtSequence [PtDigits true; PtByteLevel false true].

Lemma ex_alphabet : full_alphabet ex_vocab.
Proof.
  intros b L. unfold ex_vocab. rewrite map_app, map_map. apply in_or_app. left. apply in_map_iff. exists b. split; [reflexivity|].
  unfold all_bytes. apply in_map_iff. exists (N.to_nat b). split; [lia|]. apply in_seq. lia.
Qed.

Lemma ex_byte_level p ts post : usable p -> byte_level_pipeline p -> (exists n, snd (add_tokens all_ok (bpe_vocabulary ex_bpe) None ts av_new) = Some n) ->
  faithful_added (ex_added ts) -> byte_level_bpe (ex_tokenizer p ts post) (bpe_vocabulary ex_bpe).
Proof.
  intros U B (n & A) F. exists toy_tables, p, pop_min, ex_vocab, ex_merges, ex_bpe, (fun _ => no_draw), all_ok, ([] ++ ts), ([] ++ ts).
  assert (V : b_vocab ex_bpe = ex_vocab) by (vm_compute; reflexivity).
  split; [split; [exact toy_sane|]; split; [exact U|]; split; [exact B|exact pop_min_ok]|]. split.
  - split; [split; [apply (nodup_check str_eqb); [apply str_eqb_eq|vm_compute; reflexivity]|exists DNone, None, None, false, false, false; vm_compute; reflexivity]|].
    split; [vm_compute; reflexivity|]. split; [apply (nodup_check N.eqb); [apply N.eqb_eq|vm_compute; reflexivity]|]. split; [exact ex_alphabet|].
    intros t i H. cbn [bpe_vocabulary mv_token_to_id mv_size] in *. unfold b_id in H. rewrite V in *. apply (aget_In str_eqb str_eqb_eq) in H.
    assert (G : forallb (fun x : str * N => N.ltb (snd x) (N.of_nat (length ex_vocab))) ex_vocab = true) by (vm_compute; reflexivity).
    rewrite forallb_forall in G. specialize (G _ H). cbn [snd] in G. lia.
  - split; [repeat split; reflexivity|]. split; [|exact F]. cbn [ex_tokenizer tz_added]. unfold ex_added.
    apply (ah_add all_ok (bpe_vocabulary ex_bpe) no_norm av_new [] [] None ts _ n); [apply ah_new|intros f H; discriminate H|].
    destruct (add_tokens all_ok (bpe_vocabulary ex_bpe) None ts av_new) as [av' r]. cbn [fst snd] in *. rewrite A. reflexivity.
Qed.

Example C69_example :
  byte_level_bpe (ex_tokenizer ex_digits [ex_s] None) (bpe_vocabulary ex_bpe) /\
  exists e, encode (ex_tokenizer ex_digits [ex_s] None) OChar (Single (Raw [32; 233; 49; 60; 115; 62; 8364]%N)) false = Ok e /\
    ids e = [257; 49; 258; 226; 130; 172]%N.
Proof.
  split; [|eexists; split; [vm_compute; reflexivity|reflexivity]].
  apply ex_byte_level.
  - cbn. auto.
  - apply (bl_sequence [PtDigits true]). constructor; [exact Logic.I|constructor].
  - eexists. vm_compute. reflexivity.
  - intros i t H. assert (E : av_map_r (ex_added [ex_s]) = [(258%N, ex_s)]) by (vm_compute; reflexivity). rewrite E in H. cbn [aget] in H.
    match type of H with context [if ?b then _ else _] => destruct b end; [|discriminate H]. injection H as <-. clear E. split; [reflexivity|]. split; [reflexivity|].
    split; [repeat constructor|]. left. repeat (apply Forall_cons; [lia|]). constructor.
Qed.

(** "<s>" put before the text by a template. *)
Definition ex_builder_s : template_builder :=
  mkBuilder (Some [PSpecial [60; 115; 62]%N 0; PSeq SeqA 0]) (Some [PSeq SeqA 0; PSeq SeqB 1])
            (Some [([60; 115; 62]%N, mkSpecial [258%N] [[60; 115; 62]%N])]).
Definition ex_template_s : template := match ProcessorsModel.build ex_builder_s with Ok t => t | _ => mkTemplate [] [] 0 0 [] end.

Example C69_special_example :
  adds_around (PTemplate ex_template_s) [258%N] /\ special_id (bpe_vocabulary ex_bpe) (ex_added [ex_s]) 258%N /\
  exists e e0, encode_single (ex_tokenizer ex_digits [ex_s] (Some (PTemplate ex_template_s))) (Raw [233]%N) 0 OByte = Ok e0 /\
    Forall (fun i => ~ special_id (bpe_vocabulary ex_bpe) (ex_added [ex_s]) i) (ids e0) /\
    encode (ex_tokenizer ex_digits [ex_s] (Some (PTemplate ex_template_s))) OByte (Single (Raw [233]%N)) true = Ok e /\ ids e = [258; 256]%N.
Proof.
  split; [|split; [exists [60; 115; 62]%N; split; vm_compute; reflexivity|]].
  - apply (aa_template ex_builder_s ex_template_s [Added [([60; 115; 62]%N, 258%N)] 0; Input 0 0]); try reflexivity.
    + intros n sp [H|[]]. injection H as <- <-. reflexivity.
    + left. reflexivity.
  - eexists _, _. split; [vm_compute; reflexivity|]. split; [|split; [vm_compute; reflexivity|reflexivity]].
    cbn [ids]. constructor; [|constructor]. intros (c & H & G). vm_compute in H. injection H as <-. vm_compute in G. discriminate.
Qed.

(** ** What the conditions exclude *)
(** [add_prefix_space]: the space comes back. *)
Theorem C69_prefix_space_refuted : exists e,
  encode (ex_tokenizer (PtByteLevel true true) [] None) OByte (Single (Raw [97]%N)) false = Ok e /\
  AddedModel.decode (bpe_vocabulary ex_bpe) (ex_added []) (Some (DecodersModel.decode_tokens DByteLevel)) false (ids e) = Ok [32; 97]%N.
Proof. eexists. split; vm_compute; reflexivity. Qed.

(** An added token made of characters of the alphabet that are not ASCII: "é" is
    read back as the byte 0xE9, which is no text. *)
Theorem C69_added_alphabet_refuted : exists e,
  encode (ex_tokenizer (PtByteLevel false true) [plain_token [233]%N] None) OByte (Single (Raw [233]%N)) false = Ok e /\
  AddedModel.decode (bpe_vocabulary ex_bpe) (ex_added [plain_token [233]%N]) (Some (DecodersModel.decode_tokens DByteLevel)) false (ids e) = Ok [0xFFFD]%N.
Proof. eexists. split; vm_compute; reflexivity. Qed.

(** An added token that takes the blanks on its left: they are lost. *)
Theorem C69_lstrip_refuted : exists e,
  encode (ex_tokenizer (PtByteLevel false true) [mkAdded [60; 109; 62]%N false true false false false] None) OByte (Single (Raw [97; 32; 60; 109; 62]%N)) false = Ok e /\
  AddedModel.decode (bpe_vocabulary ex_bpe) (ex_added [mkAdded [60; 109; 62]%N false true false false false]) (Some (DecodersModel.decode_tokens DByteLevel)) false (ids e)
    = Ok [97; 60; 109; 62]%N.
Proof. eexists. split; vm_compute; reflexivity. Qed.

(** Without the token of one byte, and without unknown token, its text is lost. *)
Definition lossy_bpe : bpe :=
  match bpe_build [([97]%N, 0%N)] [] DNone None None None false false false with Ok m => m | _ => ex_bpe end.
Theorem C69_alphabet_refuted : exists e,
  encode (mkTokenizer (fun _ => false) (fun _ => false) (fun _ => false) (fun ns => ns) (Some (pre_tokenize toy_tables (PtByteLevel false true)))
            (bpe_model pop_min lossy_bpe (fun _ => no_draw)) None av_new None None) OByte (Single (Raw [97; 98]%N)) false = Ok e /\
  AddedModel.decode (bpe_vocabulary lossy_bpe) av_new (Some (DecodersModel.decode_tokens DByteLevel)) false (ids e) = Ok [97]%N.
Proof. eexists. split; vm_compute; reflexivity. Qed.
