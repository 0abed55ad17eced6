(** C31: streaming decoding.  [decode] is [Tokenizer::decode] with a vocabulary,
    added tokens, an optional decoder and [skip_special_tokens]; a run of the
    stream is a list of batches of ids ([step] feeds batches of one id). *)
From Verif Require Import Base ListFacts StrBytes Utf8 PatternModel PatternProofs PatternSpec EncodingModel NormModel NormSpec AddedModel
  DecodersModel DecodersSpec StreamModel StreamSpec StreamProofs StreamProofs2.

(** What the tokens given to the decoder become. *)
Definition token_text {E} (decoder : option (list str -> res E str)) (tokens : list str) : res E str :=
  match decoder with Some d => d tokens | None => Ok (join_space tokens) end.

Lemma step_ext {E} (d1 d2 : list N -> res E str) st b : (forall ids, d1 ids = d2 ids) -> step_decode_stream d1 st b = step_decode_stream d2 st b.
Proof.
  intros H. unfold step_decode_stream, refresh_prefix. rewrite (H (s_ids st)).
  destruct (if is_nil (s_prefix st) && negb (is_nil (s_ids st)) then _ else _) as [st1|e|]; try reflexivity.
  cbv zeta. cbn [s_prefix s_index]. rewrite H. destruct (stream_res (d2 (s_ids st1 ++ b))); try reflexivity. destruct (_ && _); [|reflexivity].
  destruct (negb _); [reflexivity|]. destruct (_ <=? _); [|reflexivity]. rewrite H. reflexivity.
Qed.
Lemma feed_ext {E} (d1 d2 : list N -> res E str) : (forall ids, d1 ids = d2 ids) -> forall bs st, feed d1 st bs = feed d2 st bs.
Proof.
  intros H. induction bs as [|b bs IH]; intros st; [reflexivity|]. cbn [feed]. rewrite (step_ext d1 d2 st b H). destruct (step_decode_stream d2 st b). rewrite IH. reflexivity.
Qed.

Definition kept m av (skip : bool) (i : N) : option str :=
  match tk_id_to_token m av i with Some t => if negb skip || negb (av_is_special av t) then Some t else None | None => None end.
Lemma decode_D {E} m av (decoder : option (list str -> res E str)) skip ids :
  AddedModel.decode m av decoder skip ids = D (token_text decoder) (kept m av skip) ids.
Proof.
  unfold AddedModel.decode, D, token_text. assert (X : AddedModel.decode_tokens m av skip ids = toks (kept m av skip) ids); [|rewrite X; reflexivity].
  unfold AddedModel.decode_tokens, toks. apply flat_map_ext. intros i. unfold kept. destruct (tk_id_to_token m av i) as [t|]; [|reflexivity]. destruct (_ || _); reflexivity.
Qed.

(** Whatever the decoder: no produced chunk is empty or ends inside a character. *)
Theorem C31_chunk : forall E (decode : list N -> res E str) batches st t,
  In t (texts (feed decode st batches)) -> t <> [] /\ complete t.
Proof.
  intros E decode. induction batches as [|b bs IH]; intros st t H; [destruct H|]. cbn [feed] in H. destruct (step_decode_stream decode st b) as [st1 o] eqn:R.
  cbn [texts flat_map] in H. apply in_app_iff in H. destruct H as [H|H]; [|exact (IH _ _ H)]. clear IH.
  destruct o as [[u|]|e|]; try (destruct H; fail). destruct H as [->|[]]. unfold step_decode_stream in R. destruct (refresh_prefix decode st) as [st2|e|]; try discriminate.
  cbv zeta in R. cbn [s_prefix s_index] in R. destruct (stream_res (decode (s_ids st2 ++ b))) as [s|e|]; try discriminate. destruct ((_ <? _) && _) eqn:B; [|discriminate].
  apply andb_true_iff in B. destruct B as [B1 B2]. apply Nat.ltb_lt in B1. apply negb_true_iff, ends_replacement_spec in B2.
  destruct (is_prefix (s_prefix st2) s) eqn:P; cbn [negb] in R; [|destruct (is_nil _); discriminate]. apply is_prefix_spec in P. destruct P as [x ->].
  destruct (_ <=? _); [|discriminate]. destruct (stream_res _); try discriminate. injection R as _ R.
  rewrite skipn_app, skipn_all, Nat.sub_diag in R. cbn [app] in R. rewrite skipn_O in R. subst t.
  assert (Nx : x <> []) by (intros ->; rewrite app_nil_r in B1; lia). split; [exact Nx|exact (complete_tail _ _ Nx B2)].
Qed.

(** A decoder that only looks at the text around: as long as no call fails, the
    produced text is the decoding of the first ids, and of all of them at the
    moment a chunk is produced. *)
Theorem C31_local : forall E m av (decoder : option (list str -> res E str)) skip batches,
  let decode := AddedModel.decode m av decoder skip in
  let outs := feed decode stream_new batches in
  local (token_text decoder) -> succeeded outs ->
  (exists early late, concat batches = early ++ late /\
     (early = [] /\ texts outs = [] \/ decode early = Ok (concat (texts outs)))) /\
  (forall front t, outs = front ++ [Ok (Some t)] -> decode (concat batches) = Ok (concat (texts outs))).
Proof.
  intros E m av decoder skip batches decode outs L S. assert (X : outs = feed (D (token_text decoder) (kept m av skip)) stream_new batches) by (apply feed_ext; intros; apply decode_D).
  assert (S' := S). rewrite X in S'. destruct (inv_feed _ _ L batches _ _ _ _ _ _ (inv_start _ _) S') as (st' & past & ctx & rest & I & Nt & Hl). cbn [app] in I. rewrite <- X in *.
  pose proof (i_out _ _ _ _ _ _ _ _ I) as O. pose proof (i_split _ _ _ _ _ _ _ _ I) as Sp. split.
  - exists (past ++ ctx), rest. split; [rewrite <- app_assoc; exact Sp|]. destruct (past ++ ctx) as [|z l] eqn:Z.
    + left. split; [reflexivity|]. destruct (texts outs) as [|t ts]; [reflexivity|]. exfalso. apply Forall_inv in Nt. cbn [concat] in O. apply app_eq_nil in O. destruct O. congruence.
    + right. unfold decode. rewrite decode_D. exact O.
  - intros front t Eo. pose proof (Hl front t Eo) as ->. rewrite app_nil_r in Sp. rewrite Sp. unfold decode. rewrite decode_D. destruct (past ++ ctx) as [|z l] eqn:Z; [|exact O].
    exfalso. assert (Tn : texts outs <> []). { rewrite Eo. unfold texts. rewrite flat_map_app. cbn. intros Y. apply app_eq_nil in Y. destruct Y. discriminate. }
    destruct (texts outs) as [|u ts]; [congruence|]. apply Forall_inv in Nt. cbn [concat] in O. apply app_eq_nil in O. destruct O. congruence.
Qed.

(** A steady decoder: no call fails, what was produced is a prefix of the
    decoding of all ids so far, and the whole of it unless that ends inside a
    character.  ([batches] is arbitrary: this holds after every call.) *)
Theorem C31_steady : forall E m av (decoder : option (list str -> res E str)) skip batches,
  let decode := AddedModel.decode m av decoder skip in
  let outs := feed decode stream_new batches in
  steady (token_text decoder) ->
  succeeded outs /\
  exists text, decode (concat batches) = Ok text /\
    (exists later, text = concat (texts outs) ++ later) /\
    (complete text -> concat (texts outs) = text).
Proof.
  intros E m av decoder skip batches decode outs S. assert (X : outs = feed (D (token_text decoder) (kept m av skip)) stream_new batches) by (apply feed_ext; intros; apply decode_D).
  assert (SS : succeeded outs) by (rewrite X; exact (steady_feed _ _ S batches _ _ _ _ _ _ (inv_start _ _))). split; [exact SS|]. rewrite X in SS.
  destruct (inv_feed _ _ (steady_local _ S) batches _ _ _ _ _ _ (inv_start _ _) SS) as (st' & past & ctx & rest & I & Nt & Hl). cbn [app] in I. rewrite <- X in *.
  destruct (steady_window _ _ _ _ _ _ _ _ rest S I) as (x & X1 & X2). exists (concat (texts outs) ++ x).
  rewrite (i_split _ _ _ _ _ _ _ _ I). unfold decode. rewrite decode_D. split; [exact X2|]. split; [eauto|]. intros C.
  destruct x as [|c x]; [rewrite app_nil_r; reflexivity|]. exfalso. destruct rest as [|i rest].
  - rewrite app_nil_r in X1, X2. pose proof (i_prefix _ _ _ _ _ _ _ _ I) as P. destruct ctx as [|z ctx].
    + pose proof (proj1 S) as S0. change (D (token_text decoder) (kept m av skip) []) with (token_text decoder []) in X1. rewrite S0, P in X1. cbn [app] in X1. congruence.
    + rewrite P in X1. assert (Y : s_prefix st' = s_prefix st' ++ c :: x) by congruence. apply (f_equal (@length N)) in Y. rewrite app_length in Y. cbn in Y. lia.
  - destruct (i_wait _ _ _ _ _ _ _ _ I ltac:(discriminate)) as (s & Es & Hs). rewrite X1 in Es. apply Hs. assert (s = s_prefix st' ++ c :: x) as -> by congruence.
    split; [rewrite blen_app; cbn [blen]; pose proof (len_utf8_pos c); lia|]. apply complete_app; [discriminate|]. refine (complete_tail _ (c :: x) _ C); discriminate.
Qed.

(** Decoders that are steady. *)
Theorem C31_decoders :
  steady (token_text (E := unit) None) /\
  steady (token_text (Some (decode_tokens DByteLevel))) /\
  (forall prefix cleanup, steady (token_text (Some (decode_tokens (DWordPiece prefix cleanup))))) /\
  (forall rep scheme, steady (token_text (Some (decode_tokens (DMetaspace rep scheme))))) /\
  (forall pad delim cleanup, steady (token_text (Some (decode_tokens (DCtc pad delim cleanup))))) /\
  steady (token_text (Some (decode_tokens DFuse))) /\
  (forall find_iter content, (forall s, engine_matches s 0 (find_iter s)) -> steady (token_text (Some (decode_tokens (DReplace find_iter content))))).
Proof.
  split; [exact join_steady|]. split; [exact byte_level_steady|]. split; [exact wordpiece_steady|]. split; [exact metaspace_steady|].
  split; [exact ctc_steady|]. split; [exact fuse_steady|exact replace_steady].
Qed.

(** Decoders that are only local. *)
Theorem C31_local_decoders :
  local (token_text (Some (decode_tokens DByteFallback))) /\
  (forall suffix, local (token_text (Some (decode_tokens (DBpe suffix))))).
Proof. split; [exact byte_fallback_local|exact bpe_local]. Qed.

(** ** Examples *)
(** 0 -> "Ã", 1 -> "©" (the byte-level characters of the two bytes of "é"), 2 -> "a". *)
Definition bl_vocab : model_vocab :=
  mkModel (fun _ => None) (fun i => if N.eqb i 0 then Some [195%N] else if N.eqb i 1 then Some [169%N] else if N.eqb i 2 then Some [97%N] else None) [] 3.
Example C31_example :
  let decode := AddedModel.decode bl_vocab av_new (Some (decode_tokens DByteLevel)) true in
  let outs := feed decode stream_new [[2]; [0]; [7]; [1]; [2; 2]]%N in
  outs = [Ok (Some [97%N]); Ok None; Ok None; Ok (Some [233%N]); Ok (Some [97%N; 97%N])] /\
  decode [2; 0; 7; 1; 2; 2]%N = Ok [97; 233; 97; 97]%N /\
  decode [2; 0]%N = Ok [97; 65533]%N.
Proof. vm_compute. repeat split; reflexivity. Qed.
Example C31_local_example :
  let decode := AddedModel.decode bl_vocab av_new (Some (decode_tokens (DBpe [97%N]))) false in
  let outs := feed decode stream_new [[2]; [0]; [2]]%N in
  succeeded outs /\ local (token_text (Some (decode_tokens (DBpe [97%N])))).
Proof. split; [|apply C31_local_decoders]. vm_compute. repeat (constructor; [eexists; reflexivity|]). constructor. Qed.

(** ** What does not hold *)
(** Byte fallback: a complete character followed by a stray byte changes the text
    already given; decoding gives a text, the stream an error, from then on
    whatever the next ids. *)
Definition bf_vocab : model_vocab :=
  mkModel (fun _ => None) (fun i => if N.eqb i 0 then Some [60; 48; 120; 67; 51; 62]%N else if N.eqb i 1 then Some [60; 48; 120; 65; 57; 62]%N
    else if N.eqb i 2 then Some [60; 48; 120; 70; 70; 62]%N else if N.eqb i 3 then Some [97%N] else None) [] 4.
Theorem C31_byte_fallback_refuted :
  let decode := AddedModel.decode bf_vocab av_new (Some (decode_tokens DByteFallback)) true in
  feed decode stream_new [[0]; [1]; [2]; [3]; [3]]%N = [Ok None; Ok (Some [233%N]); Ok None; Err SInvalidPrefix; Err SInvalidPrefix] /\
  decode [0; 1; 2; 3; 3]%N = Ok [65533; 65533; 65533; 97; 97]%N.
Proof. vm_compute. split; reflexivity. Qed.

(** The BPE decoder panics on no token at all: an unknown or skipped id. *)
Theorem C31_bpe_refuted :
  let decode := AddedModel.decode bl_vocab av_new (Some (decode_tokens (DBpe [97%N]))) true in
  feed decode stream_new [[7]]%N = [Panic].
Proof. vm_compute. reflexivity. Qed.

(** Stripping the start of the joined text: text is lost, without an error. *)
Theorem C31_fuse_strip_refuted :
  let decode := AddedModel.decode bl_vocab av_new (Some (decode_tokens (DSequence [DFuse; DStrip 97%N 2 0]))) true in
  feed decode stream_new [[0]; [2]; [2]; [2]; [0]]%N = [Ok (Some [195%N]); Ok (Some [97%N]); Ok None; Ok (Some [97%N]); Ok (Some [195%N])] /\
  decode [0; 2; 2; 2; 0]%N = Ok [195; 97; 97; 97; 195]%N.
Proof. vm_compute. split; reflexivity. Qed.

(** The decoder of Llama models, [Replace "▁" " "], [ByteFallback], [Fuse],
    [Strip ' ' 1 0], with the ids of "b", <0x20>, <0xFF>, "a": the stream gives
    "b ��a", decoding gives "b��a".  No call fails. *)
Definition llama_decoder : decoder :=
  DSequence [DReplace (fun s => []) [32%N]; DByteFallback; DFuse; DStrip 32%N 1 0].
Definition llama_vocab : model_vocab :=
  mkModel (fun _ => None) (fun i => if N.eqb i 0 then Some [98%N] else if N.eqb i 1 then Some [60; 48; 120; 50; 48; 62]%N
    else if N.eqb i 2 then Some [60; 48; 120; 70; 70; 62]%N else if N.eqb i 3 then Some [97%N] else None) [] 4.
Theorem C31_llama_refuted :
  let decode := AddedModel.decode llama_vocab av_new (Some (decode_tokens llama_decoder)) true in
  feed decode stream_new [[0]; [1]; [2]; [3]]%N = [Ok (Some [98%N]); Ok (Some [32%N]); Ok None; Ok (Some [65533; 65533; 97]%N)] /\
  decode [0; 1; 2; 3]%N = Ok [98; 65533; 65533; 97]%N.
Proof. vm_compute. split; reflexivity. Qed.
