(** C42, C43, C58: Unigram. *)
From Coq Require Import ZArith.
From Verif Require Import Base StrBytes ListFacts AMap Utf8 EncodingModel BpeWordModel BpeWordProofs BpeModel CacheModel CacheSpec CacheProps TrieModel TrieProps UnigramModel UnigramSpec UnigramProofs UnigramProofs2 UnigramProofs3 UnigramProofs4.

(** The scores of the vocabulary and of unknown characters are such that the
    laws of the arithmetic hold. *)
Definition scores_ok {W} (A : arith W) (ok : W -> Prop) (m : unigram W) : Prop :=
  score_laws A ok /\ (forall t w, In (t, w) (u_vocab m) -> ok w) /\ ok (unk_score A m).

(** ** C42 *)

(** The search used without sampling: what it returns is a best segmentation, or
    it reports the missing unknown token. *)
Theorem C42_optimised : forall {W} (A : arith W) ok m s, made A m -> scores_ok A ok m -> text_ok s -> s <> [] ->
  (exists seg, uni_encode A m None s = Ok (pieces_of m seg) /\ best A m s seg) \/
  (uni_encode A m None s = Err EMissingUnkId /\ u_unk m = None /\ exists c, In c s /\ ~ In [c] (map fst (u_vocab m))).
Proof.
  intros W A ok m s Hm (HL & Hok & Hunk) Hs NE. unfold uni_encode. destruct s as [|c s]; [congruence|]. cbn [is_nil].
  apply (encode_optimized_spec A m (made_wf A m Hm) (c :: s) Hs ok HL Hok Hunk).
Qed.

(** The lattice search. *)
Theorem C42_viterbi : forall {W} (A : arith W) ok m s u, made A m -> scores_ok A ok m -> text_ok s -> u_unk m = Some u ->
  exists seg, encode_unoptimized A m ByViterbi s = Ok (pieces_of m seg) /\ best A m s seg.
Proof.
  intros W A ok m s u Hm (HL & Hok & Hunk) Hs HU. exact (unoptimized_viterbi A m (made_wf A m Hm) s Hs ok HL Hok Hunk u HU).
Qed.

(** Both searches reach the same score. *)
Theorem C42_agree : forall {W} (A : arith W) ok m s u, made A m -> scores_ok A ok m -> text_ok s -> s <> [] -> u_unk m = Some u ->
  exists seg1 seg2, uni_encode A m None s = Ok (pieces_of m seg1) /\ encode_unoptimized A m ByViterbi s = Ok (pieces_of m seg2) /\
    a_gtb A (total A seg1) (total A seg2) = false /\ a_gtb A (total A seg2) (total A seg1) = false.
Proof.
  intros W A ok m s u Hm HS Hs NE HU. destruct (C42_optimised A ok m s Hm HS Hs NE) as [(seg1 & E1 & S1 & B1)|(_ & X & _)]; [|congruence].
  destruct (C42_viterbi A ok m s u Hm HS Hs HU) as (seg2 & E2 & S2 & B2). exists seg1, seg2. repeat split; auto.
Qed.

(** Integers satisfy the laws. *)
Definition z_arith : arith Z := mkArith 0%Z 1000%Z Z.add Z.gtb (fun x => (x - 10)%Z).
Lemma z_laws : score_laws z_arith (fun _ => True).
Proof.
  constructor; cbn; intros; try exact I; try lia.
Qed.

(** [UNK], a, b, ab, abé with scores; "abéab?" *)
Definition ex_uni : list (str * Z) := [([63; 63], 0%Z); ([97], (-1)%Z); ([98], (-2)%Z); ([97; 98], (-2)%Z); ([98; 233], (-1)%Z); ([97; 98; 233], (-5)%Z)]%N.
Definition ex_uni_s : str := [97; 98; 233; 97; 98; 8364; 8364; 97]%N.

Example C42_ex : exists m, uni_from z_arith ex_uni (Some 0%N) false = Ok m /\ made z_arith m /\ scores_ok z_arith (fun _ => True) m /\ text_ok ex_uni_s /\
  uni_encode z_arith m None ex_uni_s = Ok [[97]; [98; 233]; [97; 98]; [8364; 8364]; [97]]%N /\
  encode_unoptimized z_arith m ByViterbi ex_uni_s = Ok [[97]; [98; 233]; [97; 98]; [8364; 8364]; [97]]%N.
Proof.
  eexists. split; [reflexivity|]. split.
  - exists ex_uni, (Some 0%N), false. eexists. eexists. split; [reflexivity|]. split; [repeat constructor|]. reflexivity.
  - split; [split; [exact z_laws|split; intros; exact I]|]. split; [repeat constructor|]. split; vm_compute; reflexivity.
Qed.

(** ** C43 *)
Lemma join_ne l : Forall (fun e => fst e <> []) l -> Forall (fun x : str => x <> []) (join_marked l).
Proof.
  induction l as [|[x b] l IH]; intros F; [constructor|]. inversion F as [|? ? N F']; subst. specialize (IH F'). cbn in N. destruct b; cbn [join_marked]; [|constructor; assumption].
  destruct (join_marked l) as [|y ys]; [constructor; assumption|]. inversion IH; subst. destruct (marked_first l); constructor; auto. destruct x; [congruence|discriminate].
Qed.

Lemma pieces_fused {W} (m : unigram W) seg : u_fuse m = true -> fused m seg (pieces_of m seg).
Proof.
  intros HF. unfold pieces_of. rewrite HF. cbn [andb]. set (mk := fun it : list N * N * W => _).
  assert (MK : forall it, snd (mk it) = true <-> unknown_item m it).
  { intros it. unfold mk, unknown_item. cbn. destruct (u_unk m) as [k|]; [|split; discriminate]. rewrite N.eqb_eq. split; congruence. }
  assert (KN : forall it, {unknown_item m it} + {~ unknown_item m it}).
  { intros it. destruct (snd (mk it)) eqn:E; [left; apply MK; exact E|right; rewrite <- MK; congruence]. }
  assert (G : forall n seg, length seg <= n -> fused m seg (join_marked (map mk seg))).
  { induction n as [|n IH]; intros sg L.
    - destruct sg; [constructor|cbn in L; lia].
    - destruct sg as [|it sg]; [constructor|]. cbn in L. destruct (KN it) as [U|U].
      + (* the maximal run *)
        assert (R : exists us rest, it :: sg = us ++ rest /\ us <> [] /\ Forall (unknown_item m) us /\ (forall i, hd_error rest = Some i -> ~ unknown_item m i)).
        { clear - KN U. revert it U. induction sg as [|i sg IH]; intros it U.
          - exists [it], []. repeat split; auto; try discriminate. 
          - destruct (KN i) as [Ui|Ui].
            + destruct (IH i Ui) as (us & rest & E & N & F & H). exists (it :: us), rest. rewrite E. repeat split; auto; try discriminate.
            + exists [it], (i :: sg). repeat split; auto; try discriminate. cbn. intros i' X. injection X as <-. exact Ui. }
        destruct R as (us & rest & E & N & F & H). rewrite E.
        assert (J : join_marked (map mk (us ++ rest)) = concat (texts us) :: join_marked (map mk rest)).
        { assert (EU : map mk us = map (fun x => (x, true)) (texts us)).
          { unfold texts. rewrite map_map. apply map_ext_in. intros i Hi. rewrite Forall_forall in F. specialize (F i Hi). apply MK in F. unfold mk in *. cbn in F. cbn. rewrite F. reflexivity. }
          rewrite map_app, EU. destruct rest as [|i rest].
          - cbn [map]. rewrite app_nil_r, join_all_true. destruct us; [congruence|reflexivity].
          - assert (NU : snd (mk i) = false) by (destruct (snd (mk i)) eqn:X; [|reflexivity]; apply MK in X; exfalso; apply (H i eq_refl X)).
            cbn [map]. destruct (mk i) as [y b]. cbn in NU. subst b. rewrite join_app_false, join_all_true, join_cons_false. destruct us; [congruence|reflexivity]. }
        rewrite J. apply fused_run; auto. apply IH. assert (length (it :: sg) = length (us ++ rest)) by (rewrite E; reflexivity). rewrite app_length in *. destruct us; [congruence|]. cbn in *. lia.
      + cbn [map]. assert (NU : snd (mk it) = false) by (destruct (snd (mk it)) eqn:X; [|reflexivity]; apply MK in X; contradiction).
        destruct (mk it) as [y b] eqn:Ey. assert (y = fst (fst it)) by (unfold mk in Ey; injection Ey; auto). cbn in NU. subst b y. rewrite join_cons_false. apply fused_known; [exact U|]. apply IH. lia. }
  apply (G (length seg)). reflexivity.
Qed.

(** Whenever encoding succeeds, the pieces come from a segmentation, where only
    adjacent unknown items have been joined; they are not empty and concatenate
    to the sentence.  With sampling, an unknown token must be set. *)
Theorem C43_pieces : forall {W} (A : arith W) ok m s sampling pieces, made A m -> scores_ok A ok m -> text_ok s ->
  (forall c, sampling = Some c -> chooser_ok c /\ exists u, u_unk m = Some u) -> uni_encode A m sampling s = Ok pieces ->
  (exists seg, segmentation A m s seg /\ fused m seg pieces) /\ concat pieces = s /\ Forall (fun x => x <> []) pieces.
Proof.
  intros W A ok m s sampling pieces Hm HS Hs HC E.
  assert (X : exists seg, segmentation A m s seg /\ pieces = pieces_of m seg).
  { destruct s as [|c s].
    - cbn in E. injection E as <-. exists []. split; [split; [constructor|reflexivity]|reflexivity].
    - destruct sampling as [ch|].
      + destruct (HC ch eq_refl) as [H1 (u & HU)]. cbn in E. destruct HS as (HL & Hok & Hunk). eapply (unoptimized_pieces A m (made_wf A m Hm)); eauto.
      + destruct (C42_optimised A ok m (c :: s) Hm HS Hs ltac:(discriminate)) as [(seg & E' & B)|(E' & _)]; rewrite E in E'; [|discriminate]. injection E' as ->. exists seg. split; [apply B|reflexivity]. }
  destruct X as (seg & [F C] & ->). split; [|split].
  - exists seg. split; [split; assumption|]. apply pieces_fused. apply (made_wf A m Hm).
  - unfold pieces_of. rewrite join_concat, map_map. exact C.
  - unfold pieces_of. apply join_ne. apply Forall_map. eapply Forall_impl; [|exact F]. intros [[x id] w] H. cbn. destruct H as [[H _]|(c & -> & _)]; [exact H|discriminate].
Qed.

(** Encoding does not fail if an unknown token is set or every character is a token. *)
Theorem C43_succeeds : forall {W} (A : arith W) ok m s, made A m -> scores_ok A ok m -> text_ok s ->
  (u_unk m <> None \/ forall c, In c s -> In [c] (map fst (u_vocab m))) -> exists pieces, uni_encode A m None s = Ok pieces.
Proof.
  intros W A ok m s Hm HS Hs H. destruct s as [|c s]; [exists []; reflexivity|].
  destruct (C42_optimised A ok m (c :: s) Hm HS Hs ltac:(discriminate)) as [(seg & E & _)|(_ & U & d & I & N)]; [eauto|]. destruct H as [H|H]; [congruence|]. exfalso. auto.
Qed.

(** Sampling succeeds for some outcome of the draws. *)
Theorem C43_sampling_succeeds : forall {W} (A : arith W) ok m s u, made A m -> scores_ok A ok m -> text_ok s -> u_unk m = Some u ->
  exists pick pieces, uni_encode A m (Some (BySample pick)) s = Ok pieces.
Proof.
  intros W A ok m s u Hm (HL & Hok & Hunk) Hs HU. exists (fun _ => 0). destruct s as [|c s]; [eexists; reflexivity|]. cbn [uni_encode is_nil].
  eapply (unoptimized_sample_first A m (made_wf A m Hm)); eassumption.
Qed.

(** It never panics and never fails otherwise. *)
Theorem C43_failure : forall {W} (A : arith W) ok m s, made A m -> scores_ok A ok m -> text_ok s ->
  uni_encode A m None s <> Panic /\
  (forall e, uni_encode A m None s = Err e -> e = EMissingUnkId /\ u_unk m = None /\ exists c, In c s /\ ~ In [c] (map fst (u_vocab m))).
Proof.
  intros W A ok m s Hm HS Hs. destruct s as [|c s]; [split; [discriminate|intros e E; discriminate]|].
  destruct (C42_optimised A ok m (c :: s) Hm HS Hs ltac:(discriminate)) as [(seg & E & _)|(E & U & X)]; rewrite E; split; try discriminate. intros e H. injection H as <-. auto.
Qed.

(** The property's "only when an unknown is needed" is false: with the vocabulary
    "ab" and no unknown token, "ab" is an error although it is a token. *)
Theorem C43_only_when_needed_refuted : exists m s seg, made z_arith m /\ segmentation z_arith m s seg /\ u_unk m = None /\ uni_encode z_arith m None s = Err EMissingUnkId.
Proof.
  destruct (uni_from z_arith [([97; 98]%N, 0%Z)] None false) as [m| |] eqn:E; try discriminate. exists m, [97; 98]%N, [([97; 98]%N, 0%N, 0%Z)].
  injection E as <-. split; [|split; [|split; reflexivity]].
  - exists [([97; 98]%N, 0%Z)], None, false. eexists. eexists. split; [reflexivity|]. split; [repeat constructor|]. reflexivity.
  - split; [|reflexivity]. constructor; [|constructor]. left. split; [discriminate|]. split; [reflexivity|]. intros [|[|j]] u H; cbn; try discriminate. cbn in H. lia.
Qed.

(** Nor do the pieces concatenate to the sentence with sampling and no unknown
    token: with an n-best list of 1 the result is empty; and drawing without
    n-best panics. *)
Theorem C43_sampling_without_unk_refuted : exists m s, made z_arith m /\ s <> [] /\ u_unk m = None /\
  uni_encode z_arith m (Some (ByNBest 1 1 (fun _ => None) 0)) s = Ok [] /\
  (forall pick, uni_encode z_arith m (Some (BySample pick)) s = Panic).
Proof.
  destruct (uni_from z_arith [([97]%N, 0%Z)] None false) as [m| |] eqn:E; try discriminate. exists m, [97; 98]%N.
  injection E as <-. split; [|split; [discriminate|split; [reflexivity|split; [vm_compute; reflexivity|]]]].
  - exists [([97]%N, 0%Z)], None, false. eexists. eexists. split; [reflexivity|]. split; [repeat constructor|]. reflexivity.
  - intros pick. cbn. unfold encode_unoptimized, choose, lat_sample. cbn. destruct (pick 0) as [|k]; [|destruct k]; reflexivity.
Qed.

(** ** C58 *)
Lemma map_opt_bytes {W} (m : unigram W) (Hwf : wf m) range bytes toks :
  map_opt (fun byte => option_map (fun id => mkTok id (byte_token byte) range) (aget str_eqb (byte_token byte) (u_ids m))) bytes = Some toks ->
  exists ids, Forall2 (fun b id => known_piece m (byte_token b) id) bytes ids /\ toks = map (fun e => mkTok (snd e) (byte_token (fst e)) range) (combine bytes ids).
Proof.
  revert toks. induction bytes as [|b bytes IH]; intros toks E; cbn [map_opt] in E; [injection E as <-; exists []; split; [constructor|reflexivity]|].
  destruct (aget str_eqb (byte_token b) (u_ids m)) as [id|] eqn:EB; [|discriminate]. cbn in E. destruct (map_opt _ bytes) as [ts|]; [|discriminate]. injection E as <-.
  destruct (IH ts eq_refl) as (ids & F & ->). exists (id :: ids). split; [constructor; [apply (wf_ids m Hwf); exact EB|exact F]|reflexivity].
Qed.
Lemma map_opt_none {W} (m : unigram W) (Hwf : wf m) range bytes :
  map_opt (fun byte => option_map (fun id => mkTok id (byte_token byte) range) (aget str_eqb (byte_token byte) (u_ids m))) bytes = None ->
  forall ids, ~ Forall2 (fun b id => known_piece m (byte_token b) id) bytes ids.
Proof.
  induction bytes as [|b bytes IH]; intros E ids F; [discriminate|]. inversion F as [|? id ? ids' K F']; subst. cbn [map_opt] in E. apply (wf_ids m Hwf) in K. rewrite K in E. cbn in E.
  destruct (map_opt _ bytes); [discriminate|]. eapply IH; eauto.
Qed.

Lemma uni_tokens_spec {W} (m : unigram W) (Hwf : wf m) pieces : forall from acc toks, uni_tokens m from pieces acc = Ok toks -> exists there, toks = acc ++ there /\ pieces_tokens m from pieces there.
Proof.
  induction pieces as [|x pieces IH]; intros from acc toks E; cbn [uni_tokens] in E; [injection E as <-; exists []; rewrite app_nil_r; split; reflexivity|].
  assert (REST : forall g, piece_tokens m from x g -> uni_tokens m (from + blen x) pieces (acc ++ g) = Ok toks -> exists there, toks = acc ++ there /\ pieces_tokens m from (x :: pieces) there).
  { intros g G E'. destruct (IH _ _ _ E') as (there & -> & P). exists (g ++ there). rewrite app_assoc. split; [reflexivity|]. exists g, there. auto. }
  destruct (aget str_eqb x (u_ids m)) as [id|] eqn:EX.
  - apply (REST _ (or_introl (ex_intro _ id (conj (proj1 (wf_ids m Hwf x id) EX) eq_refl))) E).
  - assert (NK : forall id, ~ known_piece m x id) by (intros id K; apply (wf_ids m Hwf) in K; congruence).
    destruct (u_fallback m) eqn:EF.
    + destruct (map_opt _ (encode_utf8 x)) as [bs|] eqn:EB.
      * destruct (map_opt_bytes m Hwf _ _ _ EB) as (ids & F & ->). eapply REST; [|exact E]. right. split; [exact NK|]. left. exists ids. split; [split; assumption|reflexivity].
      * pose proof (map_opt_none m Hwf _ _ EB) as NB. destruct (u_unk m) as [u|] eqn:EU; [|discriminate]. eapply REST; [|exact E]. right. split; [exact NK|]. right. split; [intros ids [_ F]; exact (NB ids F)|]. eauto.
    + destruct (u_unk m) as [u|] eqn:EU; [|discriminate]. eapply REST; [|exact E]. right. split; [exact NK|]. right. split; [intros ids [F _]; congruence|]. eauto.
Qed.

(** Tokens: the pieces tile the sentence from 0, and every token has the range of
    its piece; a known piece is one token with its id and text; else, with byte
    fallback and a token for each of its bytes, the tokens of its bytes; else the
    unknown token. *)
Theorem C58_tokens : forall {W} (A : arith W) ok m s sampling toks, made A m -> scores_ok A ok m -> text_ok s ->
  (forall c, sampling = Some c -> chooser_ok c /\ exists u, u_unk m = Some u) -> uni_tokenize A m sampling s = Ok toks ->
  exists pieces, uni_encode A m sampling s = Ok pieces /\ concat pieces = s /\ pieces_tokens m 0 pieces toks.
Proof.
  intros W A ok m s sampling toks Hm HS Hs HC E. unfold uni_tokenize in E. destruct (uni_encode A m sampling s) as [pieces| |] eqn:EP; cbn [bind] in E; try discriminate.
  exists pieces. split; [reflexivity|]. destruct (C43_pieces A ok m s sampling pieces Hm HS Hs HC EP) as (_ & C & _). split; [exact C|].
  destruct (uni_tokens_spec m (made_wf A m Hm) pieces 0 [] toks E) as (there & -> & P). exact P.
Qed.

(** The range of every token is a piece of the sentence, and for tokens that are
    not byte tokens it is their text. *)
Lemma pieces_ranges {W} (m : unigram W) pieces : forall pre toks, pieces_tokens m (blen pre) pieces toks ->
  Forall (fun t => exists x, str_get (pre ++ concat pieces) (fst (t_offsets t)) (snd (t_offsets t)) = Some x /\
                   (t_value t = x \/ exists b, In b (encode_utf8 x) /\ t_value t = byte_token b)) toks.
Proof.
  induction pieces as [|x pieces IH]; intros pre toks P; cbn [pieces_tokens] in P; [subst; constructor|].
  destruct P as (here & there & -> & H & T). apply Forall_app. split.
  - assert (G : str_get (pre ++ concat (x :: pieces)) (blen pre) (blen pre + blen x) = Some x) by (cbn; apply str_get_app).
    destruct H as [(id & _ & ->)|[_ [(ids & _ & ->)|(_ & id & _ & ->)]]].
    + constructor; [|constructor]. exists x. cbn. auto.
    + apply Forall_map. apply Forall_forall. intros [b id] Hin. apply in_combine_l in Hin. exists x. cbn. eauto.
    + constructor; [|constructor]. exists x. cbn. auto.
  - specialize (IH (pre ++ x) there). rewrite blen_app, <- app_assoc in IH. apply IH. exact T.
Qed.

Theorem C58_ranges : forall {W} (A : arith W) ok m s sampling toks, made A m -> scores_ok A ok m -> text_ok s ->
  (forall c, sampling = Some c -> chooser_ok c /\ exists u, u_unk m = Some u) -> uni_tokenize A m sampling s = Ok toks ->
  Forall (fun t => exists x, str_get s (fst (t_offsets t)) (snd (t_offsets t)) = Some x /\
                   (t_value t = x \/ exists b, In b (encode_utf8 x) /\ t_value t = byte_token b)) toks.
Proof.
  intros W A ok m s sampling toks Hm HS Hs HC E. destruct (C58_tokens A ok m s sampling toks Hm HS Hs HC E) as (pieces & _ & <- & P). exact (pieces_ranges m pieces [] toks P).
Qed.

(** With an unknown token, tokenizing succeeds. *)
Theorem C58_succeeds : forall {W} (A : arith W) ok m s u, made A m -> scores_ok A ok m -> text_ok s -> u_unk m = Some u -> exists toks, uni_tokenize A m None s = Ok toks.
Proof.
  intros W A ok m s u Hm HS Hs HU. destruct (C43_succeeds A ok m s Hm HS Hs) as (pieces & E); [left; congruence|]. unfold uni_tokenize. rewrite E. cbn [bind].
  assert (G : forall pieces from acc, exists toks, uni_tokens m from pieces acc = Ok toks).
  { clear - HU. induction pieces as [|x pieces IH]; intros from acc; cbn [uni_tokens]; [eauto|]. rewrite HU. destruct (aget str_eqb x (u_ids m)); [apply IH|].
    destruct (if u_fallback m then _ else None); apply IH. }
  apply G.
Qed.

(** Byte fallback: é has tokens for its bytes, € does not. *)
Definition ex_uni2 : list (str * Z) := [([63], 0%Z); ([97], (-1)%Z); (byte_token 195, (-3)%Z); (byte_token 169, (-3)%Z)]%N.
Example C58_ex : exists m toks, uni_from z_arith ex_uni2 (Some 0%N) true = Ok m /\ scores_ok z_arith (fun _ => True) m /\
  uni_tokenize z_arith m None [97; 233; 97; 8364]%N = Ok toks /\ map t_id toks = [1; 2; 3; 1; 0]%N /\ map t_offsets toks = [(0, 1); (1, 3); (1, 3); (3, 4); (4, 7)].
Proof.
  eexists. eexists. split; [reflexivity|]. split; [split; [exact z_laws|split; intros; exact I]|]. split; [vm_compute; reflexivity|]. split; reflexivity.
Qed.

(** ** C35 for Unigram: through its shared cache, every call returns what encoding without cache returns. *)
Theorem C35_unigram : forall {W} (A : arith W) m cap ops st outs o st' out,
  let compute m s := encode_optimized A m s in
  let direct (m : unigram W) (sampling : option (chooser W)) s :=
    if is_nil s then Some (Ok []) else match sampling with None => None | Some c => Some (encode_unoptimized A m c s) end in
  srun compute direct (shared0 m cap) ops = Some (st, outs) -> sdisciplined false (ops ++ [o]) -> sstep compute direct st o = Some (st', Some out) ->
  so_res out = uni_encode A (c_model st) (so_rnd out) (so_seq out).
Proof.
  intros W A m cap ops st outs o st' out compute direct HR D S. rewrite (C35_shared compute direct m cap ops st outs o st' out HR D S).
  unfold uncached, direct, uni_encode. destruct (is_nil (so_seq out)); [reflexivity|]. destruct (so_rnd out); reflexivity.
Qed.

(** Assigning [min_score] without clearing the cache: the pieces are stale. *)
Definition ex_min (lo : Z) : unigram Z :=
  match uni_from z_arith [([63]%N, 0%Z); ([97]%N, (-1)%Z); ([97; 98]%N, (-12)%Z)] (Some 0%N) false with
  | Ok m => mkUni (u_ids m) (u_vocab m) (u_trie m) lo (u_unk m) (u_bos m) (u_eos m) (u_fuse m) (u_fallback m)
  | _ => mkUni [] [] tnode0 0%Z None 0%N 0%N true false
  end.
Theorem C35_unigram_stale_refuted :
  let compute m s := encode_optimized z_arith m s in
  let direct (m : unigram Z) (sampling : option (chooser Z)) (s : str) :=
    if is_nil s then Some (Ok []) else match sampling with None => None | Some c => Some (encode_unoptimized z_arith m c s) end in
  let ab := [97; 98]%N in
  exists st outs st' out, srun compute direct (shared0 (ex_min (-12)%Z) 5) [SStart 0 ab None false; SCheck 0 false; SWrite 0 false; SSet (ex_min 100%Z)] = Some (st, outs) /\
    sstep compute direct st (SStart 0 ab None false) = Some (st', Some out) /\
    so_res out = Ok [ab] /\ uni_encode z_arith (c_model st) None ab = Ok [[97]; [98]]%N.
Proof. eexists _, _, _, _. split; [vm_compute; reflexivity|]. split; [vm_compute; reflexivity|]. split; vm_compute; reflexivity. Qed.
