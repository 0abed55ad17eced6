(** C77: training a tokenizer, from sequences and from files. *)
From Verif Require PreTokProps PreTokProps.
From Verif Require Import Base StrBytes ListFacts AMap Utf8 EncodingModel NormModel NormSpec PreTokModel PreTokSpec AddedModel AddedSpec AddedProofs AddedProofs2 AddedProofs3 AddedProofs4 AddedProps
  BpeWordModel BpeWordSpec BpeModel BpeSpec BpeProofs BpeProps BpeTrainModel BpeTrainSpec BpeTrainProps WordPieceModel TrainersModel TrainersProps
  TokenizerModel EndToEndSpec EndToEndProps RoundTripModel TokenizerTrainModel TokenizerTrainSpec TokenizerTrainProofs.

(** ** Words *)
(** The words of a sequence are all that its encoding asks the model: two models
    that agree on them encode it alike. *)
Theorem C77_words : forall t f g s ws ty ot,
  training_words t s = Ok ws -> (forall w, In w ws -> f w = g w) ->
  encode_single (with_model t f) (Raw s) ty ot = encode_single (with_model t g) (Raw s) ty ot.
Proof. intros t f g s ws ty ot HW H. cbn [encode_single]. eapply part_agree; eauto. Qed.

(** The words can be found exactly when the sequence can be encoded, with a model that knows them. *)
Theorem C77_words_enough : forall t f s ws ty,
  training_words t s = Ok ws -> (forall w, In w ws -> exists a, f w = Ok a) -> exists e, encode_single (with_model t f) (Raw s) ty OByte = Ok e.
Proof. intros. eapply encode_total; eauto. Qed.
Theorem C77_words_needed : forall t f s ty ot e,
  encode_single (with_model t f) (Raw s) ty ot = Ok e -> exists ws, training_words t s = Ok ws.
Proof. intros. eapply encode_needs; eauto. Qed.

(** The text of an added token is counted as a word, although the model is never asked about it. *)
Definition x_added : added_vocab := fst (add_tokens all_ok (table_model []) None [special_token [120%N]] av_new).
Definition ex_tokenizer (av : added_vocab) : tokenizer :=
  mkTokenizer (fun _ => false) (fun _ => false) (fun _ => false) (fun n => n) None (wl_model (mkWL [] [63%N])) None av None None.
Theorem C77_added_words_refuted : exists t s ws w, training_words t s = Ok ws /\ In w ws /\
  forall f g ty, (forall v, v <> w -> f v = g v) -> encode_single (with_model t f) (Raw s) ty OByte = encode_single (with_model t g) (Raw s) ty OByte.
Proof.
  exists (ex_tokenizer x_added), [97; 120; 98]%N, [[97]; [120]; [98]]%N, [120%N]. split; [vm_compute; reflexivity|]. split; [cbn; auto|].
  intros f g ty H. pose proof (H [97%N] ltac:(discriminate)) as H1. pose proof (H [98%N] ltac:(discriminate)) as H2. clear H.
  assert (P1 : extract_and_normalize (fun _ => false) (fun _ => false) x_added (fun n => n) [97; 120; 98]%N =
    Ok (mkPre [97; 120; 98]%N [mkSplit (mkN [97; 120; 98]%N [97%N] [(0, 1)] 0) None; mkSplit (mkN [97; 120; 98]%N [120%N] [(1, 2)] 1) (Some [mkTok 0%N [120%N] (0, 1)]); mkSplit (mkN [97; 120; 98]%N [98%N] [(2, 3)] 2) None]) \/ True) by (right; exact Logic.I).
  clear P1. cbn [encode_single]. unfold encode_part. cbn [tz_space tz_word tz_added tz_normalizer with_model ex_tokenizer].
  match goal with |- context [extract_and_normalize ?a ?b ?c ?d ?e] => let r := eval vm_compute in (extract_and_normalize a b c d e) in replace (extract_and_normalize a b c d e) with r by (vm_compute; reflexivity) end.
  cbn [bind do_pre_tokenize tz_pre_tokenizer with_model ex_tokenizer]. unfold do_tokenize, token_limit, tokenize_in. cbn [tz_truncation with_model ex_tokenizer]. unfold pt_tokenize.
  cbn [pt_splits map_res tokenize_one sp_tokens sp_norm tz_model with_model n_normalized]. unfold tokenize_one. cbn [sp_tokens sp_norm n_normalized]. rewrite H1, H2. reflexivity.
Qed.

(** ** Lines *)
(** A file read without errors gives the lines of its text, each with its line feed. *)
Theorem C77_lines : forall s, unicode_text s ->
  exists ls, text_lines s ls /\ concat ls = s /\ Forall (fun l => l <> []) ls /\ lines_with_ending false (encode_utf8 s) = map Some ls.
Proof.
  intros s T. destruct (text_lines_exist s) as (ls & L). destruct (text_lines_facts _ _ L) as [C N]. exists ls. split; [exact L|]. split; [exact C|]. split; [exact N|]. exact (lines_text _ _ L T).
Qed.

(** Complete lines are read whatever comes after them: a line that is not UTF-8,
    or an error of reading. *)
Theorem C77_lines_before : forall broken ls bytes,
  Forall (fun l => exists b, l = b ++ [10%N] /\ ~ In 10%N b /\ unicode_text b) ls ->
  lines_with_ending broken (encode_utf8 (concat ls) ++ bytes) = map Some ls ++ lines_with_ending broken bytes.
Proof. exact lines_front. Qed.
Theorem C77_bad_line : forall l rest broken, ~ In 10%N l -> from_utf8 (l ++ [10%N]) = None ->
  exists more, lines_with_ending broken (l ++ 10%N :: rest) = None :: more.
Proof. intros l rest broken H E. exists (lines_with_ending broken rest). rewrite lines_cons by exact H. rewrite E. reflexivity. Qed.
Theorem C77_broken_line : forall l, ~ In 10%N l -> lines_with_ending true l = [None].
Proof. exact lines_broken. Qed.
Example C77_lines_ex : lines_with_ending false [97; 13; 10; 10; 98]%N = [Some [97; 13; 10]%N; Some [10%N]; Some [98%N]] /\
  lines_with_ending false [97; 10; 255; 10; 98; 10]%N = [Some [97; 10]%N; None; Some [98; 10]%N] /\ lines_with_ending true [97; 10]%N = [Some [97; 10]%N; None].
Proof. repeat split. Qed.

(** ** Files *)
Lemma reduce_fine (f : str -> res unit (list str)) r : (forall s, In s (leaves r) -> f s <> Panic) -> reduce f r <> Panic.
Proof.
  induction r as [|s|l IHl r IHr]; intros NP; cbn [reduce]; [discriminate| |].
  - unfold seq_counts. specialize (NP s (or_introl eq_refl)). destruct (f s); [discriminate|discriminate|contradiction].
  - cbn [leaves] in NP. specialize (IHl (fun s H => NP s (in_or_app _ _ _ (or_introl H)))). specialize (IHr (fun s H => NP s (in_or_app _ _ _ (or_intror H)))).
    destruct (reduce f l), (reduce f r); congruence.
Qed.
Section files.
  Context {M F : Type} (vocab_of : M -> model_vocab) (answer : M -> str -> res unit (list token)).
  Context (accepts : list (str * N) -> bool) (norm : option (str -> option str)).
  Context (size : F -> bool) (content : F -> file_bytes) (share : list str -> reduction str).

  (** Files without errors: training from them is training on their lines, in order. *)
  Theorem C77_files : forall tr files texts lns x,
    Forall (fun f => size f = true) files -> Forall2 (has_text content) files texts -> Forall2 text_lines texts lns ->
    train_from_files vocab_of answer accepts norm size content share tr files x = train vocab_of answer accepts norm tr (share (concat lns)) x.
  Proof.
    intros tr files texts lns x S T L. unfold train_from_files. rewrite (proj2 (forallb_forall size files)) by (apply Forall_forall; exact S).
    rewrite (files_items _ _ _ _ T L). pose proof (shunt_some (concat lns) []) as E. rewrite app_nil_r in E. rewrite E. cbn [shunt]. rewrite app_nil_r.
    destruct (train vocab_of answer accepts norm tr (share (concat lns)) x); reflexivity.
  Qed.

  (** A file that cannot be opened at the start: an error, and nothing has changed. *)
  Theorem C77_missing_file : forall tr files f x, In f files -> size f = false ->
    train_from_files vocab_of answer accepts norm size content share tr files x = Failed EReading x.
  Proof.
    intros tr files f x Hf E. unfold train_from_files. destruct (forallb size files) eqn:A; [|reflexivity]. rewrite forallb_forall in A. rewrite (A f Hf) in E. discriminate.
  Qed.

  Lemma stops_items f ls : stops_after content f ls -> exists rest, file_items content f = map Some ls ++ None :: rest.
  Proof.
    intros [E|ls' l rest broken E C L B|ls' l E C L NE B|ls' l E C L]; unfold file_items; rewrite E.
    - exists []. reflexivity.
    - destruct (C77_bad_line l rest broken L B) as (more & H). exists more. rewrite C77_lines_before by exact C. rewrite H. reflexivity.
    - exists []. rewrite C77_lines_before by exact C. rewrite lines_last, B by assumption. reflexivity.
    - exists []. rewrite C77_lines_before by exact C. rewrite C77_broken_line by exact L. reflexivity.
  Qed.

  (** An error of reading: the sequences before it are trained on, nothing after it
      is, and the error is returned although the model has been replaced. *)
  Theorem C77_read_error : forall tr before f after texts lns ls x,
    Forall (fun g => size g = true) (before ++ f :: after) -> Forall2 (has_text content) before texts -> Forall2 text_lines texts lns ->
    stops_after content f ls ->
    (forall y, train vocab_of answer accepts norm tr (share (concat lns ++ ls)) x = Trained y ->
       train_from_files vocab_of answer accepts norm size content share tr (before ++ f :: after) x = Failed EReading y) /\
    (forall e y, train vocab_of answer accepts norm tr (share (concat lns ++ ls)) x = Failed e y ->
       train_from_files vocab_of answer accepts norm size content share tr (before ++ f :: after) x = Failed EReading y).
  Proof.
    intros tr before f after texts lns ls x S T L SA. destruct (stops_items _ _ SA) as (rest & E). unfold train_from_files. rewrite (proj2 (forallb_forall size _)) by (apply Forall_forall; exact S).
    rewrite flat_map_app, (files_items _ _ _ _ T L). cbn [flat_map]. rewrite E, <- !app_assoc, app_assoc, <- map_app. cbn [app].
    rewrite shunt_some. cbn [shunt]. rewrite app_nil_r. split; [intros y ->|intros e y ->]; reflexivity.
  Qed.

  (** ** Training *)
  (** A sequence that cannot be pre-tokenised: an error, and nothing has changed. *)
  Theorem C77_unchanged : forall tr red x, (forall s, In s (leaves red) -> training_words (te_tokenizer x) s <> Panic) ->
    (exists s e, In s (leaves red) /\ training_words (te_tokenizer x) s = Err e) -> train vocab_of answer accepts norm tr red x = Failed EInside x.
  Proof. intros tr red x NP H. apply (C39_fails _ _ NP) in H. destruct H as (e & E). unfold train. rewrite E. reflexivity. Qed.

  Lemma trained_how : forall tr red x y, (forall s, In s (leaves red) -> training_words (te_tokenizer x) s <> Panic) ->
    train vocab_of answer accepts norm tr red x = Trained y ->
    exists wc n av, counted (training_words (te_tokenizer x)) (leaves red) wc /\ mt_learn tr wc (te_model x) = Ok (te_model y) /\
      add_tokens accepts (vocab_of (te_model y)) norm (mt_special tr) (tz_added (te_tokenizer x)) = (av, Some n) /\
      te_tokenizer y = with_added (with_model (te_tokenizer x) (answer (te_model y))) av.
  Proof.
    intros tr red x y NP H. unfold train in H. destruct (reduce (training_words (te_tokenizer x)) red) as [wc| |] eqn:E; try discriminate.
    pose proof (reduce_counted _ _ _ NP E) as C. unfold learn_and_add in H. destruct (mt_learn tr wc (te_model x)) as [m'| |] eqn:EL; try discriminate.
    destruct (add_tokens accepts (vocab_of m') norm (mt_special tr) (tz_added (with_model (te_tokenizer x) (answer m')))) as [av [n|]] eqn:EA; [|discriminate].
    injection H as <-. exists wc, n, av. cbn [te_model te_tokenizer]. auto.
  Qed.

  (** What a successful training did: the model is what the trainer makes of the
      counted words, the special tokens of the trainer were added to the tokens
      added before, and nothing else has changed. *)
  Theorem C77_trained : forall tr red x y, (forall s, In s (leaves red) -> training_words (te_tokenizer x) s <> Panic) ->
    train vocab_of answer accepts norm tr red x = Trained y ->
    exists wc n, counted (training_words (te_tokenizer x)) (leaves red) wc /\ mt_learn tr wc (te_model x) = Ok (te_model y) /\
      add_tokens accepts (vocab_of (te_model y)) norm (mt_special tr) (tz_added (te_tokenizer x)) = (tz_added (te_tokenizer y), Some n) /\
      tz_model (te_tokenizer y) = answer (te_model y) /\ same_settings (te_tokenizer x) (te_tokenizer y).
  Proof.
    intros tr red x y NP H. destruct (trained_how tr red x y NP H) as (wc & n & av & C & L & A & E). exists wc, n. rewrite E. split; [exact C|]. split; [exact L|]. split; [exact A|]. split; [reflexivity|]. repeat split.
  Qed.

  (** An error of the trainer: nothing has changed. *)
  Theorem C77_trainer_error : forall tr red x, (forall s, In s (leaves red) -> training_words (te_tokenizer x) s <> Panic) ->
    (forall wc, counted (training_words (te_tokenizer x)) (leaves red) wc -> exists e, mt_learn tr wc (te_model x) = Err e) ->
    train vocab_of answer accepts norm tr red x = Failed EInside x.
  Proof.
    intros tr red x NP H. unfold train. destruct (reduce (training_words (te_tokenizer x)) red) as [wc|e|] eqn:E; [|reflexivity|destruct (reduce_fine _ _ NP E)].
    unfold learn_and_add. destruct (H wc (reduce_counted _ _ _ NP E)) as (e & ->). reflexivity.
  Qed.

  (** The same sequences in any order, shared out in any way, give the same result
      if the trainer does not depend on the order of the counted words. *)
  Theorem C77_order : forall tr tr' red red' x,
    (forall s, In s (leaves red) -> training_words (te_tokenizer x) s <> Panic) -> Permutation (leaves red) (leaves red') ->
    mt_special tr = mt_special tr' ->
    (forall wc wc', counted (training_words (te_tokenizer x)) (leaves red) wc -> counted (training_words (te_tokenizer x)) (leaves red) wc' ->
       mt_learn tr wc (te_model x) = mt_learn tr' wc' (te_model x)) ->
    train vocab_of answer accepts norm tr red x = train vocab_of answer accepts norm tr' red' x.
  Proof.
    intros tr tr' red red' x NP P ES H. unfold train.
    assert (NP' : forall s, In s (leaves red') -> training_words (te_tokenizer x) s <> Panic) by (intros s Hs; apply NP; eapply Permutation_in; [symmetry; exact P|exact Hs]).
    pose proof (C39_fails (training_words (te_tokenizer x)) red NP) as F1. pose proof (C39_fails (training_words (te_tokenizer x)) red' NP') as F2.
    assert (FF : (exists e, reduce (training_words (te_tokenizer x)) red = Err e) <-> (exists e, reduce (training_words (te_tokenizer x)) red' = Err e)).
    { rewrite F1, F2. split; intros (s & e & Hs & E); exists s, e; (split; [|exact E]); eapply Permutation_in; [exact P|exact Hs|symmetry; exact P|exact Hs]. }
    pose proof (fun r => reduce_fine (training_words (te_tokenizer x)) r) as K.
    destruct (reduce (training_words (te_tokenizer x)) red) as [wc|e|] eqn:E1; [| |destruct (K red NP E1)];
      (destruct (reduce (training_words (te_tokenizer x)) red') as [wc'|e'|] eqn:E2; [| |destruct (K red' NP' E2)]).
    - assert (C1 := reduce_counted _ _ _ NP E1). assert (C2 := reduce_counted _ _ _ NP' E2).
      assert (C2' : counted (training_words (te_tokenizer x)) (leaves red) wc') by (eapply counted_perm; [symmetry; exact P|exact C2]).
      unfold learn_and_add. rewrite (H wc wc' C1 C2'), ES. reflexivity.
    - destruct (proj2 FF) as (e & X); [eauto|discriminate].
    - destruct (proj1 FF) as (e' & X); [eauto|discriminate].
    - reflexivity.
  Qed.

  (** ** Special tokens *)
  (** A tokenizer without added tokens: after training, each special token of the
      trainer has an id, that of the model if the model knows it and otherwise a
      new one; the token is special as its flag says; ids are not shared. *)
  Theorem C77_special : forall tr red x y, train vocab_of answer accepts norm tr red x = Trained y ->
    tz_added (te_tokenizer x) = av_new -> model_ok (vocab_of (te_model y)) -> dense (vocab_of (te_model y)) ->
    let V := vocab_of (te_model y) in let av := tz_added (te_tokenizer y) in
    (forall t, In t (mt_special tr) -> at_content t <> [] -> exists i, tk_token_to_id V av (at_content t) = Some i /\
       (mv_token_to_id V (at_content t) = None -> mv_id_to_token V i = None) /\ (at_special t = true -> av_is_special av (at_content t) = true)) /\
    (forall c i, mv_token_to_id V c = Some i -> tk_token_to_id V av c = Some i) /\
    (forall c d i, tk_token_to_id V av c = Some i -> tk_token_to_id V av d = Some i -> c = d).
  Proof.
    intros tr red x y H HN MO D V av. unfold train in H. destruct (reduce (training_words (te_tokenizer x)) red) as [wc| |]; try discriminate.
    unfold learn_and_add in H. destruct (mt_learn tr wc (te_model x)) as [m'| |]; try discriminate.
    destruct (add_tokens accepts (vocab_of m') norm (mt_special tr) (tz_added (with_model (te_tokenizer x) (answer m')))) as [a [n|]] eqn:EA; [|discriminate].
    injection H as <-. cbn [te_model te_tokenizer tz_added with_added with_model] in *. subst V av. rewrite HN in EA.
    assert (AH : added_history accepts (vocab_of m') (fun f => norm = Some f) a ([] ++ mt_special tr) ([] ++ mt_special tr)) by (eapply ah_add; [apply ah_new|intros f X; exact X|exact EA]).
    cbn [app] in AH. split; [|split].
    - intros t Ht NE. destruct (C25_added_tokens_have_ids _ _ _ _ _ _ _ MO D AH Ht NE) as (i & Hi). exists i. split; [exact Hi|]. split.
      + intros X. exact (proj1 (C25_new_ids_are_new _ _ _ _ _ _ _ _ MO D AH X Hi)).
      + intros SP. unfold av_is_special, str_mem. apply existsb_exists. exists (at_content t). split; [|apply str_eqb_eq; reflexivity].
        exact (proj2 (proj2 (special_history _ _ _ _ _ _ AH)) t Ht SP NE).
    - intros c i. exact (C25_model_tokens_keep_their_id _ _ _ _ _ _ _ _ AH).
    - intros c d i. exact (C25_distinct_ids _ _ _ _ _ _ _ _ _ MO D AH).
  Qed.

  (** ** Encoding the corpus *)
  (** A tokenizer without added tokens, special tokens that are not normalised and
      are not in the text: a sequence of the corpus is encoded word by word with
      the answers of the new model, and each of its words has been counted. *)
  Theorem C77_encodes : forall tr red x y s ty,
    train vocab_of answer accepts norm tr red x = Trained y ->
    tz_added (te_tokenizer x) = av_new -> tz_truncation (te_tokenizer x) = None -> only_cuts (te_tokenizer x) ->
    (forall s, In s (leaves red) -> training_words (te_tokenizer x) s <> Panic) ->
    Forall (fun t => at_normalized t = false /\ ~ inside_text (at_content t) s) (mt_special tr) -> In s (leaves red) ->
    exists wc ws, counted (training_words (te_tokenizer x)) (leaves red) wc /\ mt_learn tr wc (te_model x) = Ok (te_model y) /\
      training_words (te_tokenizer x) s = Ok ws /\ (forall w, In w ws -> exists n, In (w, n) wc) /\
      forall answers, Forall2 (fun w a => answer (te_model y) w = Ok a) ws answers ->
        exists e, encode_single (te_tokenizer y) (Raw s) ty OByte = Ok e /\ ids e = map t_id (concat answers) /\ tokens e = map t_value (concat answers).
  Proof.
    intros tr red x y s ty H HN HT OC NP SP Hs. destruct (trained_how tr red x y NP H) as (wc & n & av & C & L & A & ET).
    destruct (training_words (te_tokenizer x) s) as [ws|e|] eqn:EW; [| |destruct (NP s Hs EW)].
    - exists wc, ws. split; [exact C|]. split; [exact L|]. split; [reflexivity|]. split; [intros w Hw; eapply counted_word; eauto|]. intros answers FA. rewrite ET.
      apply encode_answered with (ws := ws); try assumption. rewrite HN in A.
      assert (NS : Forall (fun t => at_normalized t = false) (mt_special tr)) by (eapply Forall_impl; [|exact SP]; intros t [X _]; exact X).
      destruct (new_tries _ _ _ _ _ _ NS A) as [T1 T2]. apply unmatched_extract; [exact T1|]. intros pats EP p i HI. destruct (T2 pats EP p i HI) as (t & Ht & <-).
      rewrite Forall_forall in SP. apply SP. exact Ht.
    - exfalso. unfold train in H. destruct (proj2 (C39_fails (training_words (te_tokenizer x)) red NP)) as (e' & X); [eauto|]. rewrite X in H. discriminate.
  Qed.
End files.

(** The usual pre-tokenizers do not make tokens (C65_sound). *)
Theorem C77_cuts : forall t, tz_added t = av_new -> sound_normalizer (tz_normalizer t) -> (forall f, tz_pre_tokenizer t = Some f -> sound_pre_tokenizer f) -> only_cuts t.
Proof.
  intros t HN SN SP s p1 p2 E1 F E2. unfold do_pre_tokenize in E2. destruct (tz_pre_tokenizer t) as [f|]; [|injection E2 as <-; exact F]. rewrite HN in E1.
  destruct (extract_inside (tz_space t) (tz_word t) av_new (tz_normalizer t) s) as (p1' & E & I1); [intros pats X; discriminate|intros pats X; discriminate|exact SN|].
  rewrite E1 in E. injection E as <-. destruct (SP f eq_refl s p1 p2 I1 E2) as [_ G]. rewrite Forall_forall in *. intros sp Hs. destruct (G sp Hs) as [X|X]; [exact X|auto].
Qed.

(** ** Word-level models *)
(** Enough room for every word that is frequent enough, and every word is: the
    corpus is encoded into its words, each with its id. *)
Theorem C77_wordlevel : forall accepts norm tr sp red x y s ty,
  train wl_vocabulary wl_model accepts norm (wl_teacher tr sp) red x = Trained y ->
  tz_added (te_tokenizer x) = av_new -> tz_truncation (te_tokenizer x) = None -> only_cuts (te_tokenizer x) ->
  (forall s, In s (leaves red) -> training_words (te_tokenizer x) s <> Panic) ->
  Forall (fun t => at_normalized t = false /\ ~ inside_text (at_content t) s) sp -> In s (leaves red) ->
  (lt_min_frequency tr <= 1)%N ->
  (forall wc, counted (training_words (te_tokenizer x)) (leaves red) wc -> length (lt_special tr) + length wc <= lt_vocab_size tr) ->
  exists ws e, training_words (te_tokenizer x) s = Ok ws /\ encode_single (te_tokenizer y) (Raw s) ty OByte = Ok e /\ tokens e = ws /\
    Forall2 (fun w i => wl_token_to_id (te_model y) w = Some i) ws (ids e).
Proof.
  intros accepts norm tr sp red x y s ty H HN HT OC NP SP Hs MF RM.
  destruct (C77_encodes wl_vocabulary wl_model accepts norm _ _ _ _ s ty H HN HT OC NP SP Hs) as (wc & ws & C & L & EW & KN & EN).
  assert (L' : fst (wl_train tr wc (te_model x)) = te_model y) by (cbn [mt_learn wl_teacher] in L; congruence). clear L. rename L' into L.
  assert (AN : forall w, In w ws -> exists id, wl_tokenize (te_model y) w = Ok [mkTok id w (0, blen w)] /\ wl_token_to_id (te_model y) w = Some id).
  { intros w Hw. destruct (KN w Hw) as (n & Hn). destruct (C64_wordlevel tr wc (te_model x) w n Hn) as (id & E).
    - apply C in Hn. destruct Hn as [_ P]. lia.
    - specialize (RM wc C). etransitivity; [|exact RM]. apply Nat.add_le_mono_l. clear. induction wc as [|a wc IH]; [apply le_n|]. cbn [filter]. destruct (N.leb _ _); cbn [length]; lia.
    - rewrite L in E. exists id. split; [exact E|]. unfold wl_tokenize in E. unfold wl_token_to_id. destruct (aget str_eqb w (l_vocab (te_model y))) as [j|] eqn:EJ; [injection E as ->; reflexivity|].
      exfalso. destruct (aget str_eqb (l_unk (te_model y)) (l_vocab (te_model y))) as [j|] eqn:EU; [|discriminate]. injection E as -> EV. rewrite EV in EU. congruence. }
  assert (AA : exists answers, Forall2 (fun w a => wl_model (te_model y) w = Ok a) ws answers /\ map t_value (concat answers) = ws /\ Forall2 (fun w i => wl_token_to_id (te_model y) w = Some i) ws (map t_id (concat answers))).
  { clear -AN. induction ws as [|w ws IH]; [exists []; repeat constructor|]. destruct IH as (answers & F & V & I); [intros v Hv; apply AN; right; exact Hv|].
    destruct (AN w (or_introl eq_refl)) as (id & E & K). exists ([mkTok id w (0, blen w)] :: answers). split; [constructor; [unfold wl_model; rewrite E; reflexivity|exact F]|].
    cbn [concat app map t_value t_id]. rewrite V. split; [reflexivity|]. constructor; assumption. }
  destruct AA as (answers & F & V & I). destruct (EN answers F) as (e & E & EI & ET). exists ws, e. split; [exact EW|]. split; [exact E|]. rewrite EI, ET. auto.
Qed.

(** ** BPE *)
(** After training BPE without a limit to the alphabet, every sequence of the corpus
    is encoded, and into tokens of the vocabulary with their ids. *)
Theorem C77_bpe : forall by_count pop hpop draws accepts norm tr sp red x y s ty,
  count_sort by_count -> train_heap pop -> heap_ok hpop -> tr_limit tr = None -> b_dropout (te_model x) <> DOutside ->
  train bpe_vocabulary (fun m => bpe_model hpop m draws) accepts norm (bpe_teacher by_count pop tr sp) red x = Trained y ->
  tz_added (te_tokenizer x) = av_new -> tz_truncation (te_tokenizer x) = None -> only_cuts (te_tokenizer x) ->
  (forall s, In s (leaves red) -> training_words (te_tokenizer x) s <> Panic) ->
  (forall wc, counted (training_words (te_tokenizer x)) (leaves red) wc -> small_corpus wc) ->
  Forall (fun t => at_normalized t = false /\ ~ inside_text (at_content t) s) sp -> In s (leaves red) ->
  exists e, encode_single (te_tokenizer y) (Raw s) ty OByte = Ok e /\ Forall2 (fun t i => In (t, i) (b_vocab (te_model y))) (tokens e) (ids e).
Proof.
  intros by_count pop hpop draws accepts norm tr sp red x y s ty HC HP HH NL DO H HN HT OC NP SC SP Hs.
  destruct (C77_encodes bpe_vocabulary (fun m => bpe_model hpop m draws) accepts norm _ _ _ _ s ty H HN HT OC NP SP Hs) as (wc & ws & C & L & EW & KN & EN).
  cbn [mt_learn bpe_teacher] in L. apply bind_ok in L. destruct L as ([m' sp'] & L & X). injection X as X. subst m'.
  assert (AA : exists answers, Forall2 (fun w a => bpe_model hpop (te_model y) draws w = Ok a) ws answers /\ Forall (fun t => In (t_value t, t_id t) (b_vocab (te_model y))) (concat answers)).
  { clear EN EW. induction ws as [|w ws IH]; [exists []; repeat constructor|]. destruct IH as (answers & F & V); [intros v Hv; apply KN; right; exact Hv|].
    destruct (KN w (or_introl eq_refl)) as (n & Hn). destruct (C64_bpe by_count pop hpop tr wc _ _ _ w n (draws w) HC HP HH (SC wc C) NL DO L Hn) as (toks & E & _ & K).
    exists (toks :: answers). split; [constructor; [unfold bpe_model; rewrite E; reflexivity|exact F]|]. cbn [concat]. apply Forall_app. split; [|exact V]. apply Forall_forall. intros t Ht. apply (K t Ht). }
  destruct AA as (answers & F & V). destruct (EN answers F) as (e & E & EI & ET). exists e. split; [exact E|]. rewrite EI, ET. clear -V. induction V; cbn [map]; constructor; auto.
Qed.

(** Training BPE gives the same tokenizer whatever the threads do and in whatever
    order hash maps are read. *)
Theorem C77_bpe_order : forall by_count pop by_count' pop' hpop draws accepts norm tr sp red red' x,
  count_sort by_count -> train_heap pop -> count_sort by_count' -> train_heap pop' -> plain tr -> tr_limit tr = None ->
  (forall s, In s (leaves red) -> training_words (te_tokenizer x) s <> Panic) -> Permutation (leaves red) (leaves red') ->
  (forall wc, counted (training_words (te_tokenizer x)) (leaves red) wc -> small_corpus wc) ->
  train bpe_vocabulary (fun m => bpe_model hpop m draws) accepts norm (bpe_teacher by_count pop tr sp) red x =
  train bpe_vocabulary (fun m => bpe_model hpop m draws) accepts norm (bpe_teacher by_count' pop' tr sp) red' x.
Proof.
  intros by_count pop by_count' pop' hpop draws accepts norm tr sp red red' x HC HP HC' HP' PL NL NP P SC. apply C77_order; [exact NP|exact P|reflexivity|].
  intros wc wc' C1 C2. cbn [mt_learn bpe_teacher]. rewrite (C38_deterministic by_count pop by_count' pop' tr wc wc' (te_model x) HC HP HC' HP' (SC wc C1) PL NL (counted_same _ _ _ _ C1 C2)). reflexivity.
Qed.

(** The special tokens of a BPE trainer get the ids 0, 1, 2, ... in order. *)
Lemma trained_vocab_ok by_count pop tr wc m m' sp : count_sort by_count -> train_heap pop -> small_corpus wc -> b_dropout m <> DOutside ->
  do_train by_count pop tr wc m = Ok (m', sp) -> model_ok (bpe_vocabulary m') /\ dense (bpe_vocabulary m').
Proof.
  intros HC HP SC DO H. destruct (C37_rebuild by_count pop tr wc m HC HP SC DO) as (m2 & toks & ms & merges & E & (DT & VO & _) & _ & D1 & D2 & _ & B).
  rewrite H in E. injection E as <- _. split.
  - eapply RoundTripProofs.bpe_model_ok; [split; [exact D1|]; do 6 eexists; exact B|exact D2].
  - intros t i Hi. cbn [bpe_vocabulary mv_token_to_id mv_size] in *. unfold b_id in Hi. apply (aget_In str_eqb str_eqb_eq) in Hi.
    apply VO in Hi. assert (L : N.to_nat i < length toks) by (apply nth_error_Some; congruence).
    assert (LE : length toks <= length (b_vocab m')); [|lia].
    assert (I : incl toks (map fst (b_vocab m'))).
    { intros u Hu. destruct (In_nth_error _ _ Hu) as (k & Hk). apply in_map_iff. exists (u, N.of_nat k). split; [reflexivity|]. apply VO. rewrite Nat2N.id. exact Hk. }
    pose proof (NoDup_incl_length DT I) as X. rewrite map_length in X. exact X.
Qed.

Theorem C77_bpe_special : forall by_count pop hpop draws accepts norm tr sp red x y k t,
  count_sort by_count -> train_heap pop -> b_dropout (te_model x) <> DOutside ->
  train bpe_vocabulary (fun m => bpe_model hpop m draws) accepts norm (bpe_teacher by_count pop tr sp) red x = Trained y ->
  tz_added (te_tokenizer x) = av_new -> (forall s, In s (leaves red) -> training_words (te_tokenizer x) s <> Panic) ->
  (forall wc, counted (training_words (te_tokenizer x)) (leaves red) wc -> small_corpus wc) ->
  map at_content sp = tr_special tr -> NoDup (tr_special tr) -> nth_error sp k = Some t -> at_content t <> [] ->
  tk_token_to_id (bpe_vocabulary (te_model y)) (tz_added (te_tokenizer y)) (at_content t) = Some (N.of_nat k) /\
  (at_special t = true -> av_is_special (tz_added (te_tokenizer y)) (at_content t) = true).
Proof.
  intros by_count pop hpop draws accepts norm tr sp red x y k t HC HP DO H HN NP SC ES ND Hk NE.
  destruct (trained_how bpe_vocabulary _ accepts norm _ _ _ _ NP H) as (wc & n & av & C & L & A & ET). cbn [mt_learn bpe_teacher] in L. apply bind_ok in L. destruct L as ([m' sp'] & L & X). injection X as X. subst m'.
  destruct (trained_vocab_ok _ _ _ _ _ _ _ HC HP (SC wc C) DO L) as [MO D].
  destruct (C77_special bpe_vocabulary _ accepts norm _ _ _ _ H HN MO D) as (S1 & S2 & _). cbn [mt_special bpe_teacher] in S1.
  destruct (S1 t (nth_error_In _ _ Hk) NE) as (i & _ & _ & SP). split; [|exact SP]. apply S2.
  assert (HK : nth_error (tr_special tr) k = Some (at_content t)) by (rewrite <- ES; apply map_nth_error; exact Hk).
  destruct (C37_special by_count pop tr wc _ _ _ k _ HC HP (SC wc C) L ND HK) as [_ IN]. cbn [bpe_vocabulary mv_token_to_id]. unfold b_id. apply (In_aget str_eqb str_eqb_eq); [|exact IN]. exact (mo_keys _ MO).
Qed.

(** Training BPE never fails on sequences that can be cut into words, whatever was
    added before, if the automata can be built and the normalizer never fails. *)
Theorem C77_bpe_total : forall by_count pop hpop draws accepts norm tr sp red x,
  count_sort by_count -> train_heap pop -> b_dropout (te_model x) <> DOutside -> (forall l, accepts l = true) ->
  (forall f c, norm = Some f -> f c <> None) -> (forall s, In s (leaves red) -> exists ws, training_words (te_tokenizer x) s = Ok ws) ->
  (forall wc, counted (training_words (te_tokenizer x)) (leaves red) wc -> small_corpus wc) ->
  exists y, train bpe_vocabulary (fun m => bpe_model hpop m draws) accepts norm (bpe_teacher by_count pop tr sp) red x = Trained y.
Proof.
  intros by_count pop hpop draws accepts norm tr sp red x HC HP DO HA HNM HW SC.
  assert (NP : forall s, In s (leaves red) -> training_words (te_tokenizer x) s <> Panic) by (intros s Hs; destruct (HW s Hs) as (ws & ->); discriminate).
  unfold train. destruct (reduce (training_words (te_tokenizer x)) red) as [wc|e|] eqn:E.
  - pose proof (reduce_counted _ _ _ NP E) as C. unfold learn_and_add. cbn [mt_learn bpe_teacher].
    destruct (C37_rebuild by_count pop tr wc (te_model x) HC HP (SC wc C) DO) as (m' & toks & ms & merges & -> & _). cbn [bind mt_special bpe_teacher tz_added with_model].
    destruct (add_tokens_total accepts (bpe_vocabulary m') norm sp (tz_added (te_tokenizer x)) HNM HA) as (av' & n & ->). eauto.
  - exfalso. destruct (proj1 (C39_fails _ _ NP)) as (s & e' & Hs & X); [eauto|]. destruct (HW s Hs) as (ws & Y). congruence.
  - exfalso. exact (reduce_fine _ _ NP E).
Qed.

(** Training a word-level model gives the same tokenizer whatever the threads do. *)
Theorem C77_wordlevel_order : forall accepts norm tr sp red red' x,
  (forall s, In s (leaves red) -> training_words (te_tokenizer x) s <> Panic) -> Permutation (leaves red) (leaves red') ->
  (forall wc, counted (training_words (te_tokenizer x)) (leaves red) wc -> Forall (fun wn => unicode_text (fst wn)) wc) ->
  train wl_vocabulary wl_model accepts norm (wl_teacher tr sp) red x = train wl_vocabulary wl_model accepts norm (wl_teacher tr sp) red' x.
Proof.
  intros accepts norm tr sp red red' x NP P T. apply C77_order; [exact NP|exact P|reflexivity|]. intros wc wc' C1 C2. cbn [mt_learn wl_teacher].
  rewrite (C59_wordlevel_order tr wc wc' (te_model x) (proj1 C1) (T wc C1) (counted_same _ _ _ _ C1 C2)). reflexivity.
Qed.

(** ** Examples and findings *)
Lemma look_trained {M A} (o : outcome M) (k : trainee M -> A) v : match o with Trained y => Some (k y) | _ => None end = Some v -> exists y, o = Trained y /\ k y = v.
Proof. destruct o; intros H; try discriminate. injection H as <-. eauto. Qed.
Lemma look_failed {M A} (o : outcome M) (k : trainee M -> A) v : match o with Failed EReading y => Some (k y) | _ => None end = Some v -> exists y, o = Failed EReading y /\ k y = v.
Proof. destruct o as [|[|]|]; intros H; try discriminate. injection H as <-. eauto. Qed.
Lemma look_ok {A B} (r : res unit A) (k : A -> B) v : match r with Ok a => Some (k a) | _ => None end = Some v -> exists a, r = Ok a /\ k a = v.
Proof. destruct r; intros H; try discriminate. injection H as <-. eauto. Qed.
Definition look {A} (r : res unit A) : option A := match r with Ok a => Some a | _ => None end.

Definition ex_spaces : tokenizer :=
  mkTokenizer (fun _ => false) (fun _ => false) (fun _ => false) (fun n => n) (Some on_spaces) (wl_model (mkWL [] [63%N])) None av_new None None.
Definition ex_start : trainee wordlevel := mkTrainee ex_spaces (mkWL [] [63%N]).
Definition ex_teacher : model_trainer wordlevel := wl_teacher (mkWlt 0 9 [[63%N]]) [special_token [63%N]].
Definition ex_share (l : list str) : reduction str := fold_right (fun s r => RNode (RLeaf s) r) RId l.
(** Two files: "a b" and a line feed, "a"; and a line, then a byte that is not UTF-8. *)
Definition ex_content (f : bool) : file_bytes := if f then Some ([97; 32; 98; 10; 97]%N, false) else Some ([99; 10; 255]%N, false).
Definition ex_train (files : list bool) : outcome wordlevel :=
  train_from_files wl_vocabulary wl_model all_ok None (fun _ => true) ex_content ex_share ex_teacher files ex_start.

Lemma ex_cuts : only_cuts ex_spaces.
Proof.
  apply C77_cuts; [reflexivity|intros ns A; split; [exact A|split; reflexivity]|]. intros f H. injection H as <-. unfold on_spaces. eapply C62_cutting_sound; [apply PreTokProps.C21_predicate_split|].
  intros i ns new sp H Hin. unfold PreTokProps.split_on in H. apply bind_ok in H. destruct H as (l & _ & H). injection H as <-. apply in_map_iff in Hin. destruct Hin as (n & <- & _). reflexivity.
Qed.

Example C77_example : has_text ex_content true [97; 32; 98; 10; 97]%N /\ text_lines [97; 32; 98; 10; 97]%N [[97; 32; 98; 10]; [97]]%N /\ only_cuts ex_spaces /\
  training_words ex_spaces [97; 32; 98; 10]%N = Ok [[97]; [98; 10]]%N /\
  ~ inside_text [63%N] [97; 32; 98; 10]%N /\
  exists y e, ex_train [true] = Trained y /\ l_vocab (te_model y) = [([63], 0); ([97], 1); ([98; 10], 2)]%N /\
    encode_single (te_tokenizer y) (Raw [97; 32; 98; 10]%N) 0 OByte = Ok e /\ tokens e = [[97]; [98; 10]]%N /\ ids e = [1; 2]%N /\
    tk_token_to_id (wl_vocabulary (te_model y)) (tz_added (te_tokenizer y)) [63%N] = Some 0%N /\ av_is_special (tz_added (te_tokenizer y)) [63%N] = true.
Proof.
  split; [split; [repeat constructor|reflexivity]|]. split; [apply (tl_line [97; 32; 98]%N [97%N]); [cbn; intuition discriminate|apply tl_last; [discriminate|cbn; intuition discriminate]]|].
  split; [exact ex_cuts|]. split; [vm_compute; reflexivity|]. split.
  - intros (a & b & E). assert (X : In 63%N [97; 32; 98; 10]%N) by (rewrite E; apply in_or_app; right; left; reflexivity). cbn in X. intuition discriminate.
  - destruct (look_trained (ex_train [true]) (fun y => (l_vocab (te_model y), option_map (fun e => (tokens e, ids e)) (look (encode_single (te_tokenizer y) (Raw [97; 32; 98; 10]%N) 0 OByte)),
      tk_token_to_id (wl_vocabulary (te_model y)) (tz_added (te_tokenizer y)) [63%N], av_is_special (tz_added (te_tokenizer y)) [63%N]))
      ([([63], 0); ([97], 1); ([98; 10], 2)], Some ([[97]; [98; 10]], [1; 2]), Some 0, true)%N) as (y & E & K); [vm_compute; reflexivity|].
    injection K as K1 K2 K3 K4. exists y. cbn [encode_single] in K2 |- *. match type of K2 with context [look ?r] => destruct r as [e| |] end; cbn [look option_map] in K2; [|discriminate K2|discriminate K2]. injection K2 as K5 K6. exists e. split; [exact E|]. clear E. auto 10.
Qed.

(** An error of reading is returned, but the model has been replaced by one that
    was trained on what came before the error. *)
Theorem C77_reading_refuted : exists files y, ex_train files = Failed EReading y /\ te_model y <> te_model ex_start /\
  wl_token_to_id (te_model y) [99; 10]%N = Some 3%N.
Proof.
  exists [true; false; true]. destruct (look_failed (ex_train [true; false; true]) (fun y => wl_token_to_id (te_model y) [99; 10]%N) (Some 3%N)) as (y & E & K); [vm_compute; reflexivity|].
  exists y. split; [exact E|]. split; [|exact K]. intros X. rewrite X in K. discriminate K.
Qed.

(** Tokens added before training keep their ids, and the new model gives the same
    ids to its own tokens: what is encoded is decoded as another text. *)
Theorem C77_retrain_refuted : exists tr red x y e, te_tokenizer x = ex_tokenizer x_added /\ te_model x = mkWL [] [63%N] /\
  train wl_vocabulary wl_model all_ok None tr red x = Trained y /\ leaves red = [[97%N]] /\
  tk_token_to_id (wl_vocabulary (te_model y)) (tz_added (te_tokenizer y)) [97%N] = Some 0%N /\
  tk_token_to_id (wl_vocabulary (te_model y)) (tz_added (te_tokenizer y)) [120%N] = Some 0%N /\
  encode_single (te_tokenizer y) (Raw [97%N]) 0 OByte = Ok e /\ tokens e = [[97%N]] /\
  @decode unit (wl_vocabulary (te_model y)) (tz_added (te_tokenizer y)) None false (ids e) = Ok [120%N].
Proof.
  exists (wl_teacher (mkWlt 0 9 []) []), (RLeaf [97%N]), (mkTrainee (ex_tokenizer x_added) (mkWL [] [63%N])).
  match goal with |- exists y, _ => pose (o := train wl_vocabulary wl_model all_ok None (wl_teacher (mkWlt 0 9 []) []) (RLeaf [97%N]) (mkTrainee (ex_tokenizer x_added) (mkWL [] [63%N]))) end.
  destruct (look_trained o (fun y => (tk_token_to_id (wl_vocabulary (te_model y)) (tz_added (te_tokenizer y)) [97%N], tk_token_to_id (wl_vocabulary (te_model y)) (tz_added (te_tokenizer y)) [120%N],
    option_map (fun e => (tokens e, @decode unit (wl_vocabulary (te_model y)) (tz_added (te_tokenizer y)) None false (ids e))) (look (encode_single (te_tokenizer y) (Raw [97%N]) 0 OByte))))
    (Some 0, Some 0, Some ([[97]], Ok [120]))%N) as (y & E & K); [vm_compute; reflexivity|].
  injection K as K1 K2 K3. exists y. cbn [encode_single] in K3 |- *. match type of K3 with context [look ?r] => destruct r as [e| |] end; cbn [look option_map] in K3; [|discriminate K3|discriminate K3]. injection K3 as K4 K5. exists e. split; [reflexivity|]. split; [reflexivity|]. split; [exact E|]. clear E. split; [reflexivity|]. split; [exact K1|]. split; [exact K2|]. split; [reflexivity|]. split; [exact K4|]. unfold decode. rewrite K5. reflexivity.
Qed.

(** BPE: "aab aab" and "ab", special token "?" . *)
Definition ex_bpe_tr : trainer := mkTrainer 0 6 [[63%N]] None [] None None None.
Definition ex_bpe_start : trainee bpe := mkTrainee ex_spaces bpe_default.
Example C77_bpe_example : count_sort sort_count /\ train_heap pop_first /\ heap_ok pop_min /\ plain ex_bpe_tr /\ tr_limit ex_bpe_tr = None /\
  b_dropout (te_model ex_bpe_start) <> DOutside /\
  (forall s, In s [[97; 97; 98; 32; 97; 97; 98]; [97; 98]]%N -> exists ws, training_words ex_spaces s = Ok ws) /\
  (forall wc, counted (training_words ex_spaces) [[97; 97; 98; 32; 97; 97; 98]; [97; 98]]%N wc -> small_corpus wc) /\
  exists y e, train bpe_vocabulary (fun m => bpe_model pop_min m (fun _ => no_draw)) all_ok None (bpe_teacher sort_count pop_first ex_bpe_tr [special_token [63%N]])
    (RNode (RLeaf [97; 97; 98; 32; 97; 97; 98]%N) (RLeaf [97; 98]%N)) ex_bpe_start = Trained y /\
  encode_single (te_tokenizer y) (Raw [97; 97; 98; 32; 97; 97; 98]%N) 0 OByte = Ok e /\ tokens e = [[97; 97; 98]; [97; 97; 98]]%N /\ ids e = [4; 4]%N.
Proof.
  split; [exact sort_count_sorts|]. split; [exact pop_first_heap|]. split; [exact pop_min_ok|]. split; [split; reflexivity|]. split; [reflexivity|]. split; [discriminate|]. split.
  - intros s [<-|[<-|[]]]; eexists; vm_compute; reflexivity.
  - split.
    + intros wc C. assert (P : Permutation [([97; 97; 98], 2); ([97; 98], 1)]%N wc).
      { eapply counted_same; [|exact C]. eapply (reduce_counted _ (RNode (RLeaf [97; 97; 98; 32; 97; 97; 98]%N) (RLeaf [97; 98]%N))).
        - intros s [<-|[<-|[]]]; vm_compute; discriminate.
        - vm_compute. reflexivity. }
      unfold small_corpus. replace (corpus_size wc) with (corpus_size [([97; 97; 98], 2); ([97; 98], 1)]%N); [vm_compute; reflexivity|].
      clear -P. unfold corpus_size. induction P; cbn [fold_right]; lia.
    + match goal with |- exists y e, ?o = Trained y /\ _ => destruct (look_trained o (fun y => option_map (fun e => (tokens e, ids e)) (look (encode_single (te_tokenizer y) (Raw [97; 97; 98; 32; 97; 97; 98]%N) 0 OByte)))
        (Some ([[97; 97; 98]; [97; 97; 98]], [4; 4])%N)) as (y & E & K) end; [vm_compute; reflexivity|].
      exists y. cbn [encode_single] in K |- *. match type of K with context [look ?r] => destruct r as [e| |] end; cbn [look option_map] in K; [|discriminate K|discriminate K]. injection K as K4 K5. exists e. split; [exact E|]. clear E. auto.
Qed.
