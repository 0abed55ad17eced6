(** C47-C52: what the decoders return. *)
From Coq Require Import ZArith.
From Verif Require Import Base ListFacts AMap StrBytes Utf8 PatternModel PatternSpec PatternProofs EncodingModel NormModel NormSpec NormProofs NormProps
  PreTokModel BpeModel WordPieceModel WordPieceSpec WordPieceProps ByteLevelModel DecodersModel DecodersSpec DecodersProofs DecodersProofs2 DecodersProofs3.

(** ** C47 *)

(** Every byte has its character and back; the characters are scalar values and
    neither control characters, spaces nor the soft hyphen. *)
Theorem C47_alphabet : forall b, (b < 256)%N ->
  bytes_char b = Some (byte_char b) /\ char_bytes (byte_char b) = Some b /\ is_scalar (byte_char b) = true /\
  (33 <= byte_char b < 324)%N /\ ~ (127 <= byte_char b <= 160)%N /\ byte_char b <> 173%N.
Proof. exact alphabet. Qed.

Theorem C47_distinct : forall a b, (a < 256)%N -> (b < 256)%N -> byte_char a = byte_char b -> a = b.
Proof. exact byte_char_inj. Qed.

(** Nothing else is in the tables. *)
Theorem C47_alphabet_only :
  (forall c b, char_bytes c = Some b -> (b < 256)%N /\ c = byte_char b) /\ (forall b, (256 <= b)%N -> bytes_char b = None).
Proof. split; [exact char_bytes_inv|exact alphabet_outside]. Qed.

(** Decoding a list of blocks gives their texts, in order. *)
Theorem C47_decode : forall blocks outs, Forall2 block blocks outs ->
  decode_tokens DByteLevel (concat blocks) = Ok (concat outs).
Proof.
  intros blocks outs F. unfold decode_tokens. cbn [decode_chain bind]. unfold byte_level_decode. cbn [concat]. rewrite app_nil_r. f_equal.
  assert (H : flat_map token_bytes (concat blocks) = encode_utf8 (concat outs) /\ text (concat outs)).
  { induction F as [|b o blocks outs B _ [IH1 IH2]]; [split; [reflexivity|constructor]|]. cbn [concat]. rewrite flat_map_app, encode_utf8_app, IH1.
    destruct B as [toks s T C|t c T I N].
    - rewrite (image_bytes toks s T C). split; [reflexivity|]. apply Forall_app. auto.
    - cbn [flat_map]. rewrite (token_bytes_foreign t c I N), app_nil_r. split; [reflexivity|]. apply Forall_app. auto. }
  destruct H as [-> T]. apply lossy_encode. exact T.
Qed.

(** "é" cut inside its two bytes, then the token "[日]". *)
Example C47_decode_example :
  Forall2 block [[[104; 195]; [169]]; [[91; 26085; 93]]]%N [[104; 233]; [91; 26085; 93]]%N.
Proof.
  constructor; [|constructor; [|constructor]].
  - apply block_text; [repeat constructor|reflexivity].
  - apply (block_foreign _ 26085%N); [repeat constructor|right; left; reflexivity|].
    intros b H E. apply alphabet in H. destruct H as (_ & _ & _ & H & _). rewrite E in H. lia.
Qed.

(** Pre-tokenisation never fails; it turns every section of text into the images
    of its pieces. *)
Theorem C47_pre_tokenise : forall find_iter aps use_regex pt,
  (use_regex = true -> forall s, engine_matches s 0 (find_iter s)) -> Forall section_ok (pt_splits pt) ->
  exists pt' groups, byte_level_pre_tokenize find_iter aps use_regex pt = Ok pt' /\ pt_original pt' = pt_original pt /\
    pt_splits pt' = concat groups /\ Forall2 (image_group find_iter use_regex aps) (pt_splits pt) groups.
Proof. exact byte_level_pre_ok. Qed.

(** Tokens cut in any way out of the resulting splits decode to the sections,
    each with the space put in front of it if any. *)
Theorem C47_sections : forall find_iter aps use_regex pt,
  (use_regex = true -> forall s, engine_matches s 0 (find_iter s)) -> Forall section_ok (pt_splits pt) ->
  Forall (fun sp => sp_tokens sp = None) (pt_splits pt) ->
  exists pt', byte_level_pre_tokenize find_iter aps use_regex pt = Ok pt' /\
    forall toks, concat toks = concat (map (fun sp => n_normalized (sp_norm sp)) (pt_splits pt')) ->
      decode_tokens DByteLevel toks = Ok (concat (map (fun sp => with_prefix_space aps (n_normalized (sp_norm sp))) (pt_splits pt))).
Proof.
  intros find aps ur pt HF OK NT. destruct (byte_level_pre_ok find aps ur pt HF OK) as (pt' & groups & E & _ & S & F). exists pt'. split; [exact E|].
  intros toks C.
  assert (H : concat (map (fun sp => n_normalized (sp_norm sp)) (pt_splits pt')) =
     byte_image (concat (map (fun sp => with_prefix_space aps (n_normalized (sp_norm sp))) (pt_splits pt))) /\
     text (concat (map (fun sp => with_prefix_space aps (n_normalized (sp_norm sp))) (pt_splits pt)))).
  { rewrite S. clear - F OK NT. induction F as [|sp g l groups G _ IH]; [split; [reflexivity|constructor]|].
    inversion OK as [|? ? O1 O2]; inversion NT as [|? ? N1 N2]; subst. destruct (IH O2 N2) as [I1 I2]. cbn [concat map].
    rewrite map_app, concat_app, (image_group_text find ur aps sp g N1 G), I1. split.
    - unfold byte_image. rewrite encode_utf8_app, map_app. reflexivity.
    - apply Forall_app. split; [|exact I2]. apply with_prefix_text. apply O1. exact N1. }
  destruct H as [H T]. rewrite H in C. pose proof (C47_decode [toks] _ (Forall2_cons _ _ (block_text toks _ T C) (Forall2_nil _))) as D.
  cbn [concat] in D. rewrite !app_nil_r in D. exact D.
Qed.

Lemma nfrom_solid s : solid (nfrom s).
Proof.
  unfold solid, nfrom. cbn [n_alignments]. generalize 0 as b. induction s as [|c s IH]; intros b; [constructor|]. cbn [identity_alignments]. apply Forall_app. split; [|apply IH].
  apply Forall_forall. intros a I. apply repeat_spec in I. subst a. cbn [fst snd]. pose proof (len_utf8_pos c). lia.
Qed.

(** From a text to its splits and back. *)
Theorem C47_roundtrip : forall find_iter aps use_regex s,
  (use_regex = true -> forall s, engine_matches s 0 (find_iter s)) -> text s ->
  exists pt', byte_level_pre_tokenize find_iter aps use_regex (pre_from s) = Ok pt' /\
    forall toks, concat toks = concat (map (fun sp => n_normalized (sp_norm sp)) (pt_splits pt')) ->
      decode_tokens DByteLevel toks = Ok (with_prefix_space aps s).
Proof.
  intros find aps ur s HF T. destruct (C47_sections find aps ur (pre_from s) HF) as (pt' & E & H).
  - constructor; [|constructor]. intros _. split; [apply nfrom_aligned|]. split; [apply nfrom_solid|exact T].
  - constructor; [reflexivity|constructor].
  - exists pt'. split; [exact E|]. intros toks C. rewrite (H toks C). cbn. rewrite app_nil_r. reflexivity.
Qed.

Example C47_roundtrip_example : exists pt',
  byte_level_pre_tokenize (fun _ => [(0, 2); (2, 5)]) true true (pre_from [97; 32; 233]%N) = Ok pt' /\
  map (fun sp => n_normalized (sp_norm sp)) (pt_splits pt') = [[288; 97]; [288; 195; 169]]%N.
Proof. eexists. split; vm_compute; reflexivity. Qed.

(** The text itself does not always come back: the added space stays. *)
Theorem C47_prefix_space_refuted : exists s pt', text s /\
  byte_level_pre_tokenize (fun _ => []) true false (pre_from s) = Ok pt' /\
  decode_tokens DByteLevel (map (fun sp => n_normalized (sp_norm sp)) (pt_splits pt')) <> Ok s.
Proof. exists [97%N]. eexists. split; [repeat constructor|]. split; [vm_compute; reflexivity|]. vm_compute. discriminate. Qed.

(** And a token whose characters all belong to the alphabet is read as bytes,
    even when it stands for itself, as an added token does. *)
Theorem C47_foreign_refuted : exists t, text t /\ decode_tokens DByteLevel [t] <> Ok t.
Proof. exists [233%N]. split; [repeat constructor|]. vm_compute. discriminate. Qed.

(** ** C48 *)

(** The decoder computes exactly the relation: tokens that are not byte tokens
    are kept, and every maximal run of byte tokens becomes its text or one
    replacement character per token. *)
Theorem C48_decode : forall tokens out, decode_chain DByteFallback tokens = Ok out <-> fallback_text tokens out.
Proof.
  intros tokens out. cbn [decode_chain]. split.
  - intros E. destruct (@fallback_total unit (length tokens) tokens (le_n _)) as (out' & E' & F). rewrite E' in E. injection E as <-. exact F.
  - apply fallback_text_decode.
Qed.

Theorem C48_total : forall tokens, exists out, decode_chain DByteFallback tokens = Ok out.
Proof. intros tokens. destruct (@fallback_total unit (length tokens) tokens (le_n _)) as (out & E & _). exists out. exact E. Qed.

(** The byte tokens of a text, between other tokens, give the text back. *)
Theorem C48_text : forall before after out1 out2 s,
  text s -> s <> [] -> starts_plain after ->
  decode_chain DByteFallback before = Ok out1 -> decode_chain DByteFallback after = Ok out2 ->
  (forall b, match rev before with t :: _ => ~ byte_like t b | [] => True end) ->
  decode_chain DByteFallback (before ++ map byte_token (encode_utf8 s) ++ after) = Ok (out1 ++ s :: out2).
Proof.
  intros before after out1 out2 s T Ns P E1 E2 L. apply C48_decode in E1, E2. apply C48_decode.
  assert (M : fallback_text (map byte_token (encode_utf8 s) ++ after) (s :: out2)).
  { change (s :: out2) with ([s] ++ out2). apply (ft_run _ (encode_utf8 s)); [| |exact P|apply run_valid; auto|exact E2].
    - destruct s as [|c s]; [congruence|]. unfold encode_utf8. cbn [flat_map]. assert (H : encode_char c <> []) by (unfold encode_char; repeat destruct (N.ltb _ _); discriminate). destruct (encode_char c); [congruence|discriminate].
    - pose proof (encode_utf8_range s T) as R. clear -R. induction R as [|b l H _ IH]; cbn [map]; constructor; [|exact IH]. apply byte_like_token. exact H. }
  revert E1 L M. generalize (map byte_token (encode_utf8 s) ++ after) as rest. generalize (s :: out2) as orest. clear.
  intros orest rest E1 L M. induction E1 as [|t r out N _ IH|ts bs r o out Nt B P R _ IH].
  - exact M.
  - cbn [app]. apply ft_plain; [exact N|]. apply IH. intros b. specialize (L b). cbn [rev] in L. destruct (rev r) as [|x l] eqn:E; [exact I|]. exact L.
  - rewrite <- !app_assoc. destruct r as [|t r].
    + exfalso. rewrite app_nil_r in L. destruct (exists_last Nt) as (l & x & ->). rewrite rev_app_distr in L. cbn in L.
      apply Forall2_app_inv_l in B. destruct B as (? & ? & _ & B & _). inversion B as [|? b ? ? B1 _]; subst. exact (L b B1).
    + apply (ft_run ts bs); try assumption. apply IH. intros b. specialize (L b). rewrite rev_app_distr in L. destruct (rev (t :: r)) eqn:E; [exact I|exact L].
Qed.

(** "é" as two byte tokens, then two bytes that are not a text. *)
Example C48_example :
  decode_chain DByteFallback [[97]; [60; 48; 120; 67; 51; 62]; [60; 48; 120; 65; 57; 62]; [98]; [60; 48; 120; 67; 51; 62]; [60; 48; 120; 52; 49; 62]]%N
  = Ok [[97]; [233]; [98]; [65533]; [65533]]%N.
Proof. vm_compute. reflexivity. Qed.

(** "<0x+1>" does not name a byte, yet it is decoded as one. *)
Theorem C48_plus_refuted : exists t, (forall b, (b < 256)%N -> t <> byte_token b) /\ decode_chain DByteFallback [t] <> Ok [t].
Proof.
  exists [60; 48; 120; 43; 49; 62]%N. split; [|vm_compute; discriminate]. intros b H E. unfold byte_token in E. injection E as E _. revert E.
  assert (Q : (b / 16 < 16)%N) by (apply N.div_lt_upper_bound; lia). unfold hex_digit. destruct (N.ltb_spec (b / 16) 10); lia.
Qed.

(** ** C49 *)

(** A text without the replacement character, marked and cut anywhere (the mark
    only leading in the first token), decodes to itself, without one leading
    space unless nothing is ever put in front. *)
Theorem C49_any_cut : forall rep scheme t toks u,
  ~ In rep u -> t <> [] -> concat (t :: toks) = marked rep u -> (is_never scheme = false -> head_only rep t) ->
  decode_tokens (DMetaspace rep scheme) (t :: toks) = Ok (if is_never scheme then u else drop_one_space u).
Proof. intros rep scheme t toks u H1 H2 H3 H4. unfold decode_tokens. cbn [decode_chain bind]. rewrite (metaspace_cut rep scheme t toks u H1 H2 H3 H4). reflexivity. Qed.

(** Pre-tokenisation never fails; it marks every section and cuts it before every mark. *)
Theorem C49_pre_tokenise : forall rep scheme do_split pt,
  Forall (fun sp => sp_tokens sp = None -> aligned (sp_norm sp) /\ ~ In rep (n_normalized (sp_norm sp))) (pt_splits pt) ->
  exists pt' groups, metaspace_pre_tokenize rep scheme do_split pt = Ok pt' /\ pt_original pt' = pt_original pt /\
    pt_splits pt' = concat groups /\ Forall2 (meta_group rep scheme do_split) (pt_splits pt) groups.
Proof. exact metaspace_pre_ok. Qed.

(** The sections of a text, split, tokenised in any way: decoding gives them back
    one after the other, each with the space put in front of it, the first
    without one leading space. *)
Theorem C49_sections : forall rep scheme pt,
  rep <> 32%N ->
  Forall (fun sp => sp_tokens sp = None /\ aligned (sp_norm sp) /\ ~ In rep (n_normalized (sp_norm sp))) (pt_splits pt) ->
  exists pt', metaspace_pre_tokenize rep scheme true pt = Ok pt' /\
    forall tokss, Forall2 (fun sp toks => concat toks = n_normalized (sp_norm sp) /\ Forall (fun t => t <> []) toks) (pt_splits pt') tokss ->
      let u := concat (map (fun sp => with_space (puts_space scheme (sp_norm sp)) (n_normalized (sp_norm sp))) (pt_splits pt)) in
      decode_tokens (DMetaspace rep scheme) (concat tokss) = Ok (if is_never scheme then u else drop_one_space u).
Proof.
  intros rep scheme pt R32 OK. destruct (metaspace_pre_ok rep scheme true pt) as (pt' & groups & E & _ & S & F).
  { eapply Forall_impl; [|exact OK]. cbn beta. tauto. }
  exists pt'. split; [exact E|]. intros tokss T u.
  assert (H : Forall (fun sp => head_only rep (n_normalized (sp_norm sp)) /\ n_normalized (sp_norm sp) <> []) (pt_splits pt') /\
     concat (map (fun sp => n_normalized (sp_norm sp)) (pt_splits pt')) = marked rep u /\ ~ In rep u).
  { subst u. rewrite S. clear - F OK R32. induction F as [|sp g l groups G _ IH]; [split; [apply Forall_nil|split; [reflexivity|intros []]]|].
    - inversion OK as [|? ? (O1 & O2 & O3) OK']; subst. destruct (IH OK') as (I1 & I2 & I3). unfold meta_group in G. rewrite O1 in G. destruct G as (G1 & [G2 _] & G3). cbn [concat map]. split; [|split].
      + apply Forall_app. split; [|exact I1]. rewrite Forall_forall in *. intros x I. split; [apply G2, I|apply G1, I].
      + rewrite map_app, concat_app, G3, I2. unfold marked. rewrite map_app. reflexivity.
      + intros I. apply in_app_or in I. destruct I as [I|I]; [|exact (I3 I)]. apply O3. unfold with_space in I. destruct (n_normalized (sp_norm sp)) as [|c s]; [destruct I|].
        destruct (puts_space scheme (sp_norm sp) && negb (N.eqb c 32)); [|exact I]. destruct I as [I|I]; [congruence|exact I]. }
  destruct H as (H1 & H2 & H3).
  assert (C : concat (concat tokss) = marked rep u).
  { rewrite <- H2. clear -T. induction T as [|sp toks l tokss [T1 _] _ IH]; [reflexivity|]. cbn [concat map]. rewrite concat_app, T1, IH. reflexivity. }
  destruct (concat tokss) as [|t toks] eqn:ET.
  - destruct u; [|discriminate]. destruct (is_never scheme); reflexivity.
  - assert (HT : t <> [] /\ head_only rep t).
    { destruct T as [|sp ts l tokss' [T1 T2] _]; [discriminate|]. inversion H1 as [|? ? [P1 P2] _]; subst. destruct ts as [|t' ts].
      - cbn in T1. congruence.
      - cbn [concat app] in ET. injection ET as <- _. inversion T2; subst. split; [assumption|]. cbn [concat] in T1. rewrite <- T1 in P1.
        unfold head_only in *. intros I. apply P1. destruct t' as [|x t']; [destruct I|]. cbn [tl app] in *. apply in_or_app. left. exact I. }
    apply C49_any_cut; try assumption; [apply HT|intros _; apply HT].
Qed.

(** A text: it comes back, without one leading space if something may be put in front. *)
Theorem C49_roundtrip : forall rep scheme s, rep <> 32%N -> ~ In rep s ->
  exists pt', metaspace_pre_tokenize rep scheme true (pre_from s) = Ok pt' /\
    forall tokss, Forall2 (fun sp toks => concat toks = n_normalized (sp_norm sp) /\ Forall (fun t => t <> []) toks) (pt_splits pt') tokss ->
      decode_tokens (DMetaspace rep scheme) (concat tokss) = Ok (if is_never scheme then s else drop_one_space s).
Proof.
  intros rep scheme s R N. destruct (C49_sections rep scheme (pre_from s) R) as (pt' & E & H).
  { constructor; [|constructor]. split; [reflexivity|]. split; [apply nfrom_aligned|exact N]. }
  exists pt'. split; [exact E|]. intros tokss T. rewrite (H tokss T). f_equal. cbn [pt_splits pre_from pre_from_norm map concat sp_norm nfrom n_normalized]. rewrite app_nil_r.
  unfold with_space, puts_space, offsets_original. cbn [n_shift nfrom fst]. destruct s as [|c s]; [destruct scheme; reflexivity|].
  destruct scheme; cbn [is_never andb Nat.eqb]; try reflexivity; cbn [drop_one_space]; destruct (N.eqb_spec c 32) as [->|Nc]; cbn [negb]; reflexivity.
Qed.

Example C49_example : exists pt',
  metaspace_pre_tokenize 9601%N SAlways true (pre_from [104; 105; 32; 32; 121]%N) = Ok pt' /\
  map (fun sp => n_normalized (sp_norm sp)) (pt_splits pt') = [[9601; 104; 105]; [9601]; [9601; 121]]%N.
Proof. eexists. split; vm_compute; reflexivity. Qed.

(** Without splitting, a model that keeps the section as one token loses every space. *)
Theorem C49_unsplit_refuted : exists rep scheme s pt', rep <> 32%N /\ ~ In rep s /\
  metaspace_pre_tokenize rep scheme false (pre_from s) = Ok pt' /\
  decode_tokens (DMetaspace rep scheme) (map (fun sp => n_normalized (sp_norm sp)) (pt_splits pt')) <> Ok s /\
  decode_tokens (DMetaspace rep scheme) (map (fun sp => n_normalized (sp_norm sp)) (pt_splits pt')) <> Ok (32%N :: s).
Proof.
  exists 9601%N, SAlways, [97; 32; 98]%N. eexists. split; [discriminate|]. split; [intros [E|[E|[E|[]]]]; discriminate|].
  split; [vm_compute; reflexivity|]. split; vm_compute; discriminate.
Qed.

(** A leading space is lost. *)
Theorem C49_leading_space_refuted : exists rep scheme s pt', rep <> 32%N /\ ~ In rep s /\
  metaspace_pre_tokenize rep scheme true (pre_from s) = Ok pt' /\
  decode_tokens (DMetaspace rep scheme) (map (fun sp => n_normalized (sp_norm sp)) (pt_splits pt')) <> Ok s.
Proof.
  exists 9601%N, SFirst, [32; 97]%N. eexists. split; [discriminate|]. split; [intros [E|[E|[]]]; discriminate|].
  split; [vm_compute; reflexivity|]. vm_compute. discriminate.
Qed.

(** ** C50 *)

(** Every list is a list of maximal runs in one way. *)
Theorem C50_runs_exist : forall tokens, exists runs, runs_of tokens runs.
Proof. intros tokens. destruct (runs_exist tokens) as (runs & H & _). exists runs. exact H. Qed.

Lemma run_counts runs runs' : no_repeat (map fst runs) -> no_repeat (map fst runs') -> unroll runs = unroll runs' -> runs = runs'.
Proof.
  assert (G : forall (x : str) n m (r r' : list str), hd_error r <> Some x -> hd_error r' <> Some x -> repeat x n ++ r = repeat x m ++ r' -> n = m /\ r = r').
  { induction n as [|n IH]; intros [|m] r r' H H' E; cbn [repeat app] in E; [auto| | |].
    - subst r. cbn in H. congruence.
    - subst r'. cbn in H'. congruence.
    - injection E as E. destruct (IH m r r' H H' E). auto. }
  assert (U : forall y n q, unroll ((y, n) :: q) = repeat y (S n) ++ unroll q) by reflexivity.
  assert (HD : forall y n q, no_repeat (map fst ((y, n) :: q)) -> hd_error (unroll q) <> Some y).
  { intros y n [|[z k] q] N; [discriminate|]. cbn [map fst no_repeat] in N. cbn. intros H. injection H as ->. destruct N as [N _]. congruence. }
  revert runs'. induction runs as [|[x n] runs IH]; intros [|[y m] runs'] N N' E; [reflexivity|discriminate|discriminate|].
  pose proof E as Ex. rewrite !U in Ex. cbn [repeat app] in Ex. injection Ex as Ex _. subst y. rewrite !U in E.
  apply G in E; [|eapply HD, N|eapply HD, N']. destruct E as [E1 E2]. injection E1 as ->. f_equal. apply IH; [eapply no_repeat_tail, N|eapply no_repeat_tail, N'|exact E2].
Qed.
Theorem C50_runs_unique : forall tokens runs runs', runs_of tokens runs -> runs_of tokens runs' -> runs = runs'.
Proof. intros tokens runs runs' [-> N] [E N']. exact (run_counts runs runs' N N' E). Qed.

(** One representative of every run, with pad removed and, with cleanup, the
    cleaning rules applied and the delimiter replaced by a space; empty results
    are dropped. *)
Theorem C50_runs : forall pad delim cleanup tokens runs,
  pad <> [] -> delim <> [] -> runs_of tokens runs ->
  exists outs, decode_chain (DCtc pad delim cleanup) tokens = Ok (nonempty_parts outs) /\
    Forall2 (fun (r : str * nat) (o : str) =>
      exists p, replaced pad [] (fst r) p /\
        (if cleanup then exists c, replaced_all clean_rules p c /\ replaced delim [32%N] c o else o = p)) runs outs.
Proof.
  intros pad delim cleanup tokens runs Np Nd [-> NR]. exists (map (ctc_token pad delim cleanup) (map fst runs)). split.
  - cbn [decode_chain]. unfold ctc_decode. rewrite dedup_runs by exact NR. reflexivity.
  - clear NR. induction runs as [|[t n] runs IH]; cbn [map fst]; constructor; [|exact IH]. exists (str_replace pad [] t). split; [apply str_replace_spec; exact Np|].
    unfold ctc_token. destruct cleanup; [|reflexivity]. exists (wp_cleanup (str_replace pad [] t)). split; [apply cleanup_spec|apply str_replace_spec; exact Nd].
Qed.

(** Ordinary tokens: pad tokens vanish, delimiters become spaces, the others are kept. *)
Theorem C50_simple : forall pad delim tokens runs,
  pad <> [] -> delim <> [] -> ~ occurs pad delim -> Forall (fun r : str * str => ~ occurs (fst r) delim) clean_rules ->
  runs_of tokens runs -> Forall (ordinary pad delim) tokens ->
  decode_chain (DCtc pad delim true) tokens =
    Ok (map (fun t => if str_eqb t delim then [32%N] else t) (filter (fun t => negb (str_eqb t pad)) (map fst runs))).
Proof.
  intros pad delim tokens runs Np Nd O1 O2 [-> NR] F. cbn [decode_chain]. unfold ctc_decode. rewrite dedup_runs by exact NR. f_equal. clear NR.
  induction runs as [|[t n] runs IH]; [reflexivity|]. change (unroll ((t, n) :: runs)) with (repeat t (S n) ++ unroll runs) in F.
  apply Forall_app in F. destruct F as [F1 F2]. cbn [repeat] in F1. apply Forall_inv in F1. specialize (IH F2). cbn [map fst filter].
  destruct F1 as [->|[->|(N & P1 & P2 & P3)]].
  - rewrite str_eqb_refl. cbn [negb]. rewrite (ctc_token_pad pad delim true Np Nd). cbn [is_nil negb]. exact IH.
  - destruct (str_eqb delim pad) eqn:E.
    + apply str_eqb_eq in E. exfalso. apply O1. exists [], []. rewrite app_nil_r. exact E.
    + cbn [negb map]. rewrite str_eqb_refl. assert (D : ctc_token pad delim true delim = [32%N]).
      { unfold ctc_token. rewrite (str_replace_absent pad) by assumption. rewrite cleanup_absent by assumption. apply str_replace_whole; exact Nd. }
      rewrite D. cbn [is_nil negb]. f_equal. exact IH.
  - destruct (str_eqb t pad) eqn:E.
    + apply str_eqb_eq in E. exfalso. apply P1. exists [], []. rewrite app_nil_r. exact E.
    + cbn [negb map]. destruct (str_eqb t delim) eqn:E2.
      * apply str_eqb_eq in E2. exfalso. apply P2. exists [], []. rewrite app_nil_r. exact E2.
      * assert (D : ctc_token pad delim true t = t) by (unfold ctc_token; rewrite (str_replace_absent pad), cleanup_absent, str_replace_absent by assumption; reflexivity).
        rewrite D. destruct t; [congruence|]. cbn [is_nil negb]. f_equal. exact IH.
Qed.

(** "<pad>" as [60; 62], "|" as [124]: h h <> e | | y. *)
Example C50_example :
  decode_chain (DCtc [60; 62]%N [124]%N true) [[104]; [104]; [60; 62]; [104]; [101]; [124]; [124]; [121]]%N
  = Ok [[104]; [104]; [101]; [32]; [121]]%N
  /\ runs_of [[104]; [104]; [60; 62]; [104]; [101]; [124]; [124]; [121]]%N
       [([104%N], 1); ([60; 62]%N, 0); ([104%N], 0); ([101%N], 0); ([124%N], 1); ([121%N], 0)].
Proof. split; [reflexivity|]. split; [reflexivity|]. cbn. repeat split; discriminate. Qed.

(** Without cleanup the delimiter is kept. *)
Theorem C50_delimiter_refuted : exists pad delim tokens, pad <> [] /\ delim <> [] /\ In delim tokens /\ delim <> [32%N] /\
  decode_chain (DCtc pad delim false) tokens = Ok tokens.
Proof. exists [60; 62]%N, [124]%N, [[97]; [124]; [98]]%N. repeat split; try discriminate. right; left; reflexivity. Qed.

(** ** C51 *)

Lemma replace_parts_ok {E} content (segs : list (str * bool)) : forall pre,
  @replace_parts E content (pre ++ concat (map fst segs)) (seg_offsets len_utf8 (blen pre) segs) =
    Ok (concat (map (fun sg : str * bool => if snd sg then content else fst sg) segs)).
Proof.
  induction segs as [|[t f] segs IH]; intros pre; [reflexivity|]. cbn [seg_offsets replace_parts map fst snd concat].
  rewrite sum_blen. specialize (IH (pre ++ t)). rewrite blen_app, <- app_assoc in IH. rewrite IH.
  destruct f; cbn [bind]; [reflexivity|]. rewrite str_get_app' by reflexivity. reflexivity.
Qed.

(** Replace: every match becomes the content. *)
Theorem C51_replace : forall find_iter content tokens, (forall s, engine_matches s 0 (find_iter s)) ->
  exists out, decode_chain (DReplace find_iter content) tokens = Ok out /\
    Forall2 (fun t o => exists segs, covers_text (regex_find_matches find_iter t) segs t /\
      o = concat (map (fun sg : str * bool => if snd sg then content else fst sg) segs)) tokens out.
Proof.
  intros find content tokens HF. cbn [decode_chain]. unfold replace_decode. induction tokens as [|t tokens (out & E & F)]; [exists []; split; [reflexivity|constructor]|].
  destruct (C16_regex find t (HF t)) as (segs & [C1 C2] & _). pose proof (@replace_parts_ok unit content segs []) as P. cbn [app] in P. change (blen []) with 0 in P.
  rewrite <- C1, <- C2 in P. eexists. split; [cbn [map_res]; rewrite P, E; reflexivity|]. constructor; [|exact F]. exists segs. repeat split; assumption.
Qed.

(** Decoders without BPE and Strip, sequences of them included, always succeed. *)
Theorem C51_harmless : forall d, harmless d -> forall tokens, exists out, decode_chain d tokens = Ok out.
Proof.
  fix IH 2. intros d H. destruct H as [|prefix cleanup|rep scheme|pad delim cleanup|find content HF| | |ds F]; intros tokens; try (eexists; reflexivity).
  - destruct (C51_replace find content tokens HF) as (out & E & _). eauto.
  - apply C48_total.
  - revert tokens. induction F as [|d ds Hd F' IHds]; intros tokens; [eexists; reflexivity|].
    destruct (IH d Hd tokens) as (mid & E). destruct (IHds mid) as (out & E'). exists out. cbn [decode_chain] in *. rewrite E. exact E'.
Qed.

Example C51_harmless_example : harmless (DSequence [DReplace (fun _ => []) [120%N]; DByteFallback; DFuse]).
Proof. constructor. constructor; [constructor; intros s; exact I|]. constructor; [constructor|]. constructor; [constructor|constructor]. Qed.

(** No decoder returns an error. *)
Theorem C51_no_error : forall d tokens e, decode_chain d tokens <> Err e.
Proof.
  fix IH 1. intros d tokens e. destruct d as [suffix| |prefix cleanup|rep scheme|pad delim cleanup|ds|find content| |c start stop|]; try discriminate.
  - cbn [decode_chain]. unfold bpe_decode. destruct tokens; discriminate.
  - cbn [decode_chain]. revert tokens. induction ds as [|d ds IHds]; intros tokens; [discriminate|].
    destruct (decode_chain d tokens) as [mid|e'|] eqn:E; cbn [bind]; [apply IHds|exfalso; exact (IH d tokens e' E)|discriminate].
  - cbn [decode_chain]. unfold replace_decode. induction tokens as [|t tokens IHt]; [discriminate|]. cbn [map_res].
    assert (R : forall ms, @replace_parts unit content t ms <> Err e).
    { induction ms as [|[[a b] m] ms IHm]; [discriminate|]. cbn [replace_parts]. destruct m; cbn [bind].
      - destruct (replace_parts content t ms); cbn [bind]; congruence.
      - destruct (str_get t a b); cbn [of_option bind]; [|discriminate]. destruct (replace_parts content t ms); cbn [bind]; congruence. }
    specialize (R (regex_find_matches find t)). destruct (replace_parts content t _); cbn [bind]; [|congruence|discriminate].
    destruct (map_res _ tokens); cbn [bind]; congruence.
  - cbn [decode_chain]. induction tokens as [|t tokens IHt]; [discriminate|]. cbn [map_res].
    assert (R : @strip_token unit c start stop t <> Err e).
    { unfold strip_token. assert (Q : forall k l, @strip_stop unit c k l <> Err e).
      { induction k as [|k IHk]; intros [|x l]; try discriminate. cbn [strip_stop]. destruct (N.eqb x c); [apply IHk|discriminate]. }
      specialize (Q stop (rev t)). destruct (strip_stop c stop (rev t)); cbn [bind]; [|congruence|discriminate]. unfold slice. destruct (_ && _); discriminate. }
    destruct (strip_token c start stop t); cbn [bind]; [|congruence|discriminate]. destruct (map_res _ tokens); cbn [bind]; congruence.
  - destruct (C48_total tokens) as (out & E). rewrite E. discriminate.
Qed.

(** BPE panics exactly on the empty list; otherwise the suffix becomes a space,
    and disappears from the last token. *)
Theorem C51_bpe : forall suffix tokens, suffix <> [] ->
  (tokens = [] /\ decode_chain (DBpe suffix) tokens = Panic) \/
  exists front t outs o, tokens = front ++ [t] /\ decode_chain (DBpe suffix) tokens = Ok (outs ++ [o]) /\
    Forall2 (replaced suffix [32%N]) front outs /\ replaced suffix [] t o.
Proof.
  intros suffix tokens Ns. destruct tokens as [|x tokens]; [left; split; reflexivity|]. right. cbn [decode_chain]. unfold bpe_decode. cbn [is_nil].
  revert x. induction tokens as [|y tokens IH]; intros x.
  - exists [], x, [], (str_replace suffix [] x). repeat split; [constructor|]. apply str_replace_spec; exact Ns.
  - destruct (IH y) as (front & t & outs & o & E1 & E2 & F & R). exists (x :: front), t, (str_replace suffix [32%N] x :: outs), o.
    split; [rewrite E1; reflexivity|]. split; [|split; [constructor; [apply str_replace_spec; exact Ns|exact F]|exact R]].
    assert (E3 : bpe_decode_from suffix (y :: tokens) = outs ++ [o]) by congruence. change (bpe_decode_from suffix (x :: y :: tokens)) with (str_replace suffix [32%N] x :: bpe_decode_from suffix (y :: tokens)). rewrite E3. reflexivity.
Qed.

(** Strip cuts at most [start] and [stop] copies of its character, or panics on a
    token made only of fewer copies than it wants to cut. *)
Theorem C51_strip : forall c start stop tokens,
  (exists out, decode_chain (DStrip c start stop) tokens = Ok out /\ Forall2 (stripped c start stop) tokens out) \/
  (decode_chain (DStrip c start stop) tokens = Panic /\ exists n, In (repeat c n) tokens /\ n < Nat.min start n + stop).
Proof.
  intros c start stop tokens. cbn [decode_chain].
  assert (T : forall t, (exists o, @strip_token unit c start stop t = Ok o /\ stripped c start stop t o) \/
     (@strip_token unit c start stop t = Panic /\ exists n, t = repeat c n /\ n < Nat.min start n + stop)).
  { intros t. destruct (split_content c t) as [(n & ->)|(a & b & m & -> & N & H1 & H2)].
    - rewrite strip_all. destruct (Nat.leb_spec (Nat.min start n + stop) n) as [L|L].
      + left. eexists. split; [reflexivity|]. apply stripped_all. exact L.
      + right. split; [reflexivity|]. eauto.
    - left. rewrite (strip_mixed c start stop a b m N H1 H2). eexists. split; [reflexivity|]. apply stripped_mixed; assumption. }
  induction tokens as [|t tokens IH]; [left; exists []; split; [reflexivity|constructor]|]. cbn [map_res].
  destruct (T t) as [(o & -> & S)|[-> (n & -> & L)]]; cbn [bind].
  - destruct IH as [(out & -> & F)|[-> (n & I & L)]]; cbn [bind].
    + left. eexists. split; [reflexivity|]. constructor; assumption.
    + right. split; [reflexivity|]. exists n. split; [right; exact I|exact L].
  - right. split; [reflexivity|]. exists n. split; [left; reflexivity|exact L].
Qed.

(** And it does panic on such a token, wherever it stands. *)
Theorem C51_strip_panics : forall c start stop tokens n, In (repeat c n) tokens -> n < Nat.min start n + stop ->
  decode_chain (DStrip c start stop) tokens = Panic.
Proof.
  intros c start stop tokens n I L. destruct (C51_strip c start stop tokens) as [(out & E & _)|[E _]]; [|exact E]. exfalso. cbn [decode_chain] in E.
  revert out E. induction tokens as [|t tokens IH]; intros out E; [destruct I|]. cbn [map_res] in E. destruct I as [->|I].
  - rewrite strip_all in E. replace (Nat.min start n + stop <=? n) with false in E by (symmetry; apply Nat.leb_gt; exact L). discriminate.
  - destruct (strip_token c start stop t); cbn [bind] in E; try discriminate. destruct (map_res _ tokens) eqn:E'; cbn [bind] in E; try discriminate. exact (IH I _ eq_refl).
Qed.

(** A sequence is its decoders one after the other. *)
Theorem C51_sequence : forall ds ds' tokens,
  decode_chain (DSequence (ds ++ ds')) tokens =
    (let! mid := decode_chain (DSequence ds) tokens in decode_chain (DSequence ds') mid) /\
  (forall d, decode_chain (DSequence [d]) tokens = decode_chain d tokens).
Proof.
  intros ds ds' tokens. split.
  - revert tokens. induction ds as [|d ds IH]; intros tokens; [reflexivity|]. cbn [app]. cbn [decode_chain] in *.
    destruct (decode_chain d tokens) as [mid|e|]; cbn [bind]; [apply IH|reflexivity|reflexivity].
  - intros d. cbn [decode_chain]. destruct (decode_chain d tokens); reflexivity.
Qed.

(** Fuse: what comes after it sees one token, the whole text; the text stays. *)
Theorem C51_fuse : forall ds tokens,
  decode_chain (DSequence (DFuse :: ds)) tokens = decode_chain (DSequence ds) [concat tokens] /\
  decode_tokens DFuse tokens = Ok (concat tokens).
Proof. intros ds tokens. split; [reflexivity|]. unfold decode_tokens. cbn. rewrite app_nil_r. reflexivity. Qed.

(** So Strip cuts the text, not every token. *)
Example C51_fuse_example :
  decode_tokens (DSequence [DFuse; DStrip 32%N 1 0]) [[32; 97]; [32; 98]]%N = Ok [97; 32; 98]%N /\
  decode_tokens (DSequence [DStrip 32%N 1 0; DFuse]) [[32; 97]; [32; 98]]%N = Ok [97; 98]%N.
Proof. split; reflexivity. Qed.

(** Hence decoders can panic: BPE on nothing, Strip on an empty token. *)
Theorem C51_refuted :
  decode_tokens (DBpe [60; 47; 119; 62]%N) [] = Panic /\ decode_tokens (DStrip 32%N 0 1) [[]] = Panic /\
  decode_tokens (DStrip 32%N 1 1) [[32%N]] = Panic.
Proof. repeat split. Qed.

(** ** C52 *)

(** The first token is kept; every other is glued to it, or set off by a space. *)
Theorem C52_glue : forall prefix cleanup t toks,
  exists gs, Forall2 (glued prefix) toks gs /\
    exists outs, decode_chain (DWordPiece prefix cleanup) (t :: toks) = Ok outs /\
      Forall2 (fun g o => if cleanup then replaced_all clean_rules g o else o = g) (t :: gs) outs.
Proof.
  intros prefix cleanup t toks. pose proof (wordpiece_rest prefix cleanup toks) as F. cbn [decode_chain wordpiece_decode].
  assert (G : exists gs, Forall2 (glued prefix) toks gs /\
     Forall2 (fun g o => if cleanup then replaced_all clean_rules g o else o = g) gs (wordpiece_decode prefix cleanup false toks)).
  { induction F as [|x o l outs (g & G & ->) _ (gs & F1 & F2)]; [exists []; split; constructor|]. exists (g :: gs). split; [constructor; assumption|]. constructor; [|exact F2].
    destruct cleanup; [apply cleanup_spec|reflexivity]. }
  destruct G as (gs & F1 & F2). exists gs. split; [exact F1|]. eexists. split; [reflexivity|]. constructor; [|exact F2]. destruct cleanup; [apply cleanup_spec|reflexivity].
Qed.

(** What a token is glued as is determined by it. *)
Theorem C52_glue_unique : forall prefix t a b, glued prefix t a -> glued prefix t b -> a = b.
Proof. exact glued_fun. Qed.

(** Words tokenised by WordPiece decode to the words with single spaces between them. *)
Theorem C52_words : forall m ws, Forall (good_word m) ws -> ws <> [] ->
  exists tokss, Forall2 (fun w toks => wp_tokenize m w = Ok toks) ws tokss /\
    decode_tokens (DWordPiece (w_prefix m) false) (map t_value (concat tokss)) = Ok (join_spaces ws).
Proof.
  intros m ws F N. destruct (decode_words m ws F N) as (tokss & E & D). exists tokss. split; [exact E|]. unfold decode_tokens. cbn [decode_chain bind]. rewrite D. reflexivity.
Qed.

Example C52_words_example : good_word ex_wp [117; 110; 97; 233; 98]%N.
Proof.
  split; [discriminate|]. split; [intros x; cbn; discriminate|]. split; [unfold ex_wp; cbn; lia|]. eexists. exact C40_ex3.
Qed.
Example C52_example :
  decode_tokens (DWordPiece [35; 35]%N false) [[117; 110]; [35; 35; 97]; [117; 110]]%N = Ok [117; 110; 97; 32; 117; 110]%N /\
  decode_tokens (DWordPiece [35; 35]%N true) [[117; 110]; [33]]%N = Ok [117; 110; 33]%N.
Proof. split; reflexivity. Qed.

(** The hypotheses on words are needed: a word that starts with the prefix loses
    it, and with an empty prefix words are not separated. *)
Theorem C52_prefixed_word_refuted : exists m ws tokss, Forall (fun w => w <> []) ws /\ w_prefix m <> [] /\
  Forall2 (fun w toks => wp_tokenize m w = Ok toks) ws tokss /\
  decode_tokens (DWordPiece (w_prefix m) false) (map t_value (concat tokss)) <> Ok (join_spaces ws).
Proof.
  exists (mkWP [([35; 35; 97], 0)]%N [120]%N [35; 35]%N 100), [[35; 35; 97]; [35; 35; 97]]%N, [[mkTok 0%N [35; 35; 97]%N (0, 3)]; [mkTok 0%N [35; 35; 97]%N (0, 3)]].
  split; [repeat constructor; discriminate|]. split; [discriminate|]. split; [repeat constructor|]. vm_compute. discriminate.
Qed.
Theorem C52_empty_prefix_refuted : exists m ws tokss, Forall (fun w => w <> []) ws /\ w_prefix m = [] /\
  Forall2 (fun w toks => wp_tokenize m w = Ok toks) ws tokss /\
  decode_tokens (DWordPiece (w_prefix m) false) (map t_value (concat tokss)) <> Ok (join_spaces ws).
Proof.
  exists (mkWP [([97], 0)]%N [120]%N [] 100), [[97]; [97]]%N, [[mkTok 0%N [97]%N (0, 1)]; [mkTok 0%N [97]%N (0, 1)]].
  split; [repeat constructor; discriminate|]. split; [reflexivity|]. split; [repeat constructor|]. vm_compute. discriminate.
Qed.
