(** C37, C38, C39, C63: training of BPE. *)
From Verif Require Import Base ListFacts StrBytes Utf8 AMap EncodingModel BpeWordModel BpeWordSpec BpeModel BpeSpec BpeProofs BpeProps
  BpeTrainModel BpeTrainSpec BpeTrainProofs BpeTrainProofs2 BpeTrainProofs3 BpeTrainProofs4 BpeTrainProofs5 BpeTrainProofs6 BpeTrainProofs7 BpeTrainProofs8 BpeTrainProofs9.
From Coq Require Import ZArith.

(** ** The oracles exist *)
Lemma pop_first_heap : train_heap pop_first.
Proof.
  assert (T : forall a b : tmerge, tm_first a b = true <-> (tm_count b < tm_count a)%Z \/ (tm_count b = tm_count a /\ pair_le (tm_pair a) (tm_pair b))).
  { intros a b. unfold tm_first, pair_le. rewrite orb_true_iff, andb_true_iff, orb_true_iff, andb_true_iff. lia. }
  assert (T' : forall a b : tmerge, tm_first a b = false -> (tm_count a < tm_count b)%Z \/ (tm_count a = tm_count b /\ pair_le (tm_pair b) (tm_pair a))).
  { intros a b H. assert (X : ~ ((tm_count b < tm_count a)%Z \/ (tm_count b = tm_count a /\ pair_le (tm_pair a) (tm_pair b)))) by (rewrite <- T; congruence). unfold pair_le in *. lia. }
  split; [reflexivity|].
  assert (H : forall q, match pop_first q with None => q = [] | Some (e, q') => Permutation q (e :: q') /\ forall e', In e' q' -> (tm_count e' < tm_count e)%Z \/ (tm_count e' = tm_count e /\ pair_le (tm_pair e) (tm_pair e')) end).
  { induction q as [|e q IH]; [reflexivity|]. cbn [pop_first]. destruct (pop_first q) as [[e1 q1]|]; [|subst q; split; [reflexivity|intros ? []]]. destruct IH as [P M]. destruct (tm_first e e1) eqn:F.
    - apply T in F. split; [reflexivity|]. intros e' He. eapply Permutation_in in He; [|exact P]. destruct He as [<-|He]; [exact F|]. specialize (M _ He). unfold pair_le in *. lia.
    - apply T' in F. split; [etransitivity; [constructor; exact P|apply perm_swap]|]. intros e' [<-|He]; [exact F|apply M; exact He]. }
  intros q NE. specialize (H q). destruct (pop_first q) as [[e q']|]; [exists e, q'; tauto|contradiction].
Qed.

Lemma sort_count_sorts : count_sort sort_count.
Proof.
  assert (IP : forall x l, Permutation (x :: l) (insert_count x l)).
  { intros x l. induction l as [|y l IH]; cbn [insert_count]; [reflexivity|]. destruct (N.leb (snd x) (snd y)); [reflexivity|]. transitivity (y :: x :: l); [apply perm_swap|constructor; exact IH]. }
  intros l. induction l as [|x l [P S1]]; [split; constructor|]. cbn [sort_count fold_right]. change (fold_right insert_count [] l) with (sort_count l). split.
  - etransitivity; [constructor; exact P|apply IP].
  - clear P. induction (sort_count l) as [|y s IH]; cbn [insert_count]; [repeat constructor|]. inversion S1 as [|? ? S2 F]; subst. destruct (N.leb_spec (snd x) (snd y)) as [L|L].
    + constructor; [exact S1|]. constructor; [exact L|]. eapply Forall_impl; [|exact F]. cbn. intros a H. lia.
    + constructor; [apply IH; exact S2|]. apply Forall_forall. intros a Ha. apply (Permutation_in _ (Permutation_sym (IP x s))) in Ha. rewrite Forall_forall in F. destruct Ha as [<-|Ha]; [lia|apply F; exact Ha].
Qed.

(** ** C37: the trained model *)
(** Training succeeds.  The tokens, in the order of their ids, are the first
    ones (special tokens, characters, forms of characters) and then results of
    merges; not more than asked for, unless the first ones are more.  Both parts
    and the result of every merge are tokens; merges are ranked as learnt.  The
    other options of the model are kept. *)
Theorem C37_train by_count pop tr wc m :
  count_sort by_count -> train_heap pop -> small_corpus wc ->
  exists m' toks first rest al ms,
    do_train by_count pop tr wc m = Ok (m', tr_special tr) /\ vocabulary m' toks /\ toks = first ++ rest /\
    kept_alphabet tr wc al /\ first_tokens tr wc al first /\
    length toks <= Nat.max (tr_vocab_size tr) (length first) /\
    ranked m' ms /\
    (forall a b r, In ((a, b), r) ms -> exists ta tb t,
       nth_error toks (N.to_nat a) = Some ta /\ nth_error toks (N.to_nat b) = Some tb /\ nth_error toks (N.to_nat r) = Some t /\ joined (tr_prefix tr) ta tb t) /\
    (forall t, In t rest -> exists a b r, In ((a, b), r) ms /\ nth_error toks (N.to_nat r) = Some t) /\
    b_prefix m' = tr_prefix tr /\ b_suffix m' = tr_suffix tr /\
    b_dropout m' = b_dropout m /\ b_unk m' = b_unk m /\ b_fuse m' = b_fuse m /\ b_fallback m' = b_fallback m /\ b_ignore_merges m' = b_ignore_merges m.
Proof.
  intros HC HP SC. destruct (train_run by_count pop tr wc m HC HP SC) as (al & st & wtu & st' & P & E & V & ET).
  destruct (loop_tokens pop tr wc al st wtu _ st' HP P E) as (LE & MK & rest & ER & HR).
  exists (result tr m (v_words (ts_voc st')) (ts_merges st')), (v_words (ts_voc st')), (v_words (ts_voc st)), rest, al, (ts_merges st').
  split; [exact ET|]. split; [apply result_vocabulary; apply V|]. split; [exact ER|]. split; [exact (p_alphabet _ _ _ _ _ P)|]. split; [exact (p_first _ _ _ _ _ P)|]. split; [exact LE|].
  split; [apply final_merges_ranked; reflexivity|]. split; [|split; [|cbn; auto 8]].
  - intros a b r HI. rewrite Forall_forall in MK. destruct (MK _ HI) as (ta & tb & t & A & B & C & J). exists ta, tb, t. auto.
  - intros t Ht. destruct (HR t Ht) as ([[a b] r] & Hm & A). exists a, b, r. auto.
Qed.

Definition ex_base : bpe := mkBpe [] [] [] DNone None None None false false false.
Definition ex_trainer : trainer := mkTrainer 2 12 [[60; 117; 62]%N] None [] None None None.
(** hug 10, pug 5, pun 12, bun 4, hugs 5. *)
Definition ex_words : list (str * N) :=
  [([104; 117; 103], 10); ([112; 117; 103], 5); ([112; 117; 110], 12); ([98; 117; 110], 4); ([104; 117; 103; 115], 5)]%N.
Example C37_train_example :
  small_corpus ex_words /\
  exists m', do_train sort_count pop_first ex_trainer ex_words ex_base = Ok (m', [[60; 117; 62]%N]) /\
    b_id m' [60; 117; 62]%N = Some 0%N /\ b_id m' [104; 117; 103]%N = Some 10%N /\ length (b_vocab m') = 12 /\ length (b_merges m') = 4.
Proof. split; [vm_compute; reflexivity|]. eexists. split; [vm_compute; reflexivity|]. auto. Qed.

Lemma run_result by_count pop tr wc m m' sp : count_sort by_count -> train_heap pop -> small_corpus wc -> do_train by_count pop tr wc m = Ok (m', sp) ->
  exists al st wtu st', prepared tr wc al st wtu /\ train_loop pop tr (turns (ts_queue st) (ts_words st)) (map snd wc) st = Ok st' /\ vok (ts_voc st') /\
    m' = result tr m (v_words (ts_voc st')) (ts_merges st').
Proof.
  intros HC HP SC H. destruct (train_run by_count pop tr wc m HC HP SC) as (al & st & wtu & st' & P & E & V & ET). rewrite H in ET. injection ET as -> _. exists al, st, wtu, st'. auto.
Qed.

(** Special tokens come first: the k-th has id k. *)
Theorem C37_special by_count pop tr wc m m' sp k s :
  count_sort by_count -> train_heap pop -> small_corpus wc -> do_train by_count pop tr wc m = Ok (m', sp) ->
  NoDup (tr_special tr) -> nth_error (tr_special tr) k = Some s -> sp = tr_special tr /\ In (s, N.of_nat k) (b_vocab m').
Proof.
  intros HC HP SC H D Hk. destruct (C37_train by_count pop tr wc m HC HP SC) as (m2 & toks & first & rest & al & ms & ET & (_ & VO & _) & EF & _ & (extra & E1 & _) & _). rewrite H in ET. injection ET as <- ->. split; [reflexivity|].
  apply VO. rewrite Nat2N.id, EF, E1. destruct (distinct_prefix (tr_special tr) (map (fun c => [c]) al ++ extra)) as (more & ->). rewrite (distinct_id _ D), <- app_assoc.
  rewrite nth_error_app1; [exact Hk|]. apply nth_error_Some. congruence.
Qed.

(** Without prefix and suffix: at most as many tokens as asked for, unless
    special tokens and characters are more. *)
Theorem C37_size by_count pop tr wc m :
  count_sort by_count -> train_heap pop -> small_corpus wc -> plain tr ->
  exists m' al, do_train by_count pop tr wc m = Ok (m', tr_special tr) /\ kept_alphabet tr wc al /\
    length (b_vocab m') <= Nat.max (tr_vocab_size tr) (length (tr_special tr) + length al).
Proof.
  intros HC HP SC PL. destruct (train_run by_count pop tr wc m HC HP SC) as (al & st & wtu & st' & P & E & V & ET).
  destruct (loop_tokens pop tr wc al st wtu _ st' HP P E) as (LE & _). exists (result tr m (v_words (ts_voc st')) (ts_merges st')), al. split; [exact ET|]. split; [exact (p_alphabet _ _ _ _ _ P)|].
  cbn [b_vocab result]. rewrite indexed_len. pose proof (first_tokens_plain _ _ _ _ PL (p_first _ _ _ _ _ P)) as EF.
  assert (L : length (v_words (ts_voc st)) <= length (tr_special tr) + length al); [|lia]. rewrite EF.
  etransitivity; [|apply Nat.eq_le_incl; rewrite <- (map_length (fun c => [c]) al), <- app_length; reflexivity].
  apply NoDup_incl_length; [apply distinct_nodup|]. intros x. apply distinct_in.
Qed.

(** With a suffix the forms of characters come on top of that. *)
Theorem C37_size_refuted : exists tr wc m' al,
  do_train sort_count pop_first tr wc ex_base = Ok (m', []) /\ small_corpus wc /\ kept_alphabet tr wc al /\
  Nat.max (tr_vocab_size tr) (length (tr_special tr) + length al) < length (b_vocab m').
Proof.
  exists (mkTrainer 0 2 [] None [] None (Some [33%N]) None), [([97; 98]%N, 1%N)]. eexists. exists [97%N; 98%N]. split; [vm_compute; reflexivity|]. split; [vm_compute; reflexivity|]. split; [|vm_compute; lia].
  unfold kept_alphabet. cbv zeta. cbn [tr_initial tr_limit]. split; [repeat constructor; lia|]. split.
  - intros c H. right. exists [97; 98]%N, 1%N. split; [left; reflexivity|exact H].
  - intros c [[]|(w & n & [E|[]] & H)]. injection E as <- <-. exact H.
Qed.

(** Without prefix and suffix: the result of a merge is shorter than the
    maximum, or it is made of two characters. *)
Theorem C37_max_length by_count pop tr wc m m' sp mx :
  count_sort by_count -> train_heap pop -> small_corpus wc -> plain tr -> do_train by_count pop tr wc m = Ok (m', sp) -> tr_max_length tr = Some mx ->
  forall a b k r t, In ((a, b), (k, r)) (b_merges m') -> In (t, r) (b_vocab m') -> length t < mx \/ length t = 2.
Proof.
  intros HC HP SC PL H EM. destruct (run_result _ _ _ _ _ _ _ HC HP SC H) as (al & st & wtu & st' & P & E & V & ->).
  destruct (plain_loop pop tr wc al st wtu _ st' HP PL P E) as (_ & _ & _ & _ & SH). destruct (loop_tokens pop tr wc al st wtu _ st' HP P E) as (_ & MK & _).
  intros a b k r t HI HT. apply (final_merges_ranked (result tr m (v_words (ts_voc st')) (ts_merges st')) (ts_merges st') eq_refl) in HI. destruct HI as [HI _]. apply nth_error_In in HI. cbn [b_vocab result] in HT. apply indexed_in in HT.
  rewrite Forall_forall in SH, MK. specialize (SH _ HI). destruct (MK _ HI) as (ta & tb & t' & A & B & C & J). cbn [fst snd] in *. unfold at_id in *. rewrite HT in C. injection C as <-.
  destruct J as [(p & ? & X & _)|(_ & ->)]; [rewrite (proj1 PL) in X; discriminate|]. unfold short_merge, joinable in SH. cbv zeta in SH. cbn [fst snd] in SH.
  rewrite (nth_error_nth _ _ _ A), (nth_error_nth _ _ _ B), EM in SH. rewrite app_length. lia.
Qed.

Example C37_max_length_example : exists tr m',
  do_train sort_count pop_first tr ex_words ex_base = Ok (m', [[60; 117; 62]%N]) /\ plain tr /\ tr_max_length tr = Some 4 /\ tr_vocab_size tr = 100 /\
  In ([104; 117; 103]%N, 10%N) (b_vocab m') /\ ~ In [104; 117; 103; 115]%N (map fst (b_vocab m')).
Proof.
  exists (mkTrainer 2 100 [[60; 117; 62]%N] None [] None None (Some 4)). eexists. split; [vm_compute; reflexivity|]. cbn. repeat split; auto 20. intros H. repeat destruct H as [H|H]; discriminate || exact H.
Qed.

(** Two characters are merged whatever the maximum. *)
Theorem C37_max_length_refuted : exists tr wc m' t,
  do_train sort_count pop_first tr wc ex_base = Ok (m', []) /\ small_corpus wc /\ plain tr /\ tr_max_length tr = Some 1 /\ In (t, 2%N) (b_vocab m') /\ length t = 2.
Proof.
  exists (mkTrainer 0 9 [] None [] None None (Some 1)), [([97; 98]%N, 1%N)]. eexists. exists [97; 98]%N. split; [vm_compute; reflexivity|]. repeat split; cbn; auto.
Qed.

(** Without prefix and suffix: the ranks are 0 .. n-1, and no two merges have
    the same result. *)
Theorem C37_ranks by_count pop tr wc m m' sp :
  count_sort by_count -> train_heap pop -> small_corpus wc -> plain tr -> do_train by_count pop tr wc m = Ok (m', sp) ->
  (forall k, (exists a b r, In ((a, b), (k, r)) (b_merges m')) <-> (k < N.of_nat (length (b_merges m')))%N) /\
  (forall a b k a' b' k' r, In ((a, b), (k, r)) (b_merges m') -> In ((a', b'), (k', r)) (b_merges m') -> k = k' /\ a = a' /\ b = b').
Proof.
  intros HC HP SC PL H. destruct (run_result _ _ _ _ _ _ _ HC HP SC H) as (al & st & wtu & st' & P & E & V & ->).
  destruct (plain_loop pop tr wc al st wtu _ st' HP PL P E) as (D1 & _ & D2 & _). set (ms := ts_merges st') in *. set (M := result tr m (v_words (ts_voc st')) ms).
  assert (IN : forall a b k r, In ((a, b), (k, r)) (b_merges M) <-> nth_error ms (N.to_nat k) = Some ((a, b), r)).
  { intros a b k r. rewrite <- (ranked_lookup M ms eq_refl D2 a b k r). unfold b_lookup. split; [apply (In_aget _ pair_eqb_eq); apply final_merges_nodup; constructor|apply (aget_In _ pair_eqb_eq)]. }
  assert (LN : length (b_merges M) = length ms).
  { assert (D : NoDup (map fst (b_merges M))) by (apply final_merges_nodup; constructor).
    rewrite <- (map_length fst (b_merges M)), <- (map_length fst ms). apply Nat.le_antisymm; apply NoDup_incl_length; try assumption.
    - intros [a b] HI. apply in_map_iff in HI. destruct HI as ([[a' b'] [k r]] & X & HI). injection X as -> ->. apply IN in HI. apply nth_error_In in HI. apply (in_map fst) in HI. exact HI.
    - intros [a b] HI. apply in_map_iff in HI. destruct HI as ([[a' b'] r] & X & HI). injection X as -> ->. apply In_nth_error in HI. destruct HI as (i & HI). apply in_map_iff. exists ((a, b), (N.of_nat i, r)). split; [reflexivity|]. apply IN. rewrite Nat2N.id. exact HI. }
  split.
  - intros k. rewrite LN. split.
    + intros (a & b & r & HI). apply IN in HI. assert (X : N.to_nat k < length ms) by (apply nth_error_Some; congruence). lia.
    + intros L. destruct (nth_error ms (N.to_nat k)) as [[[a b] r]|] eqn:X; [exists a, b, r; apply IN; exact X|]. apply nth_error_None in X. lia.
  - intros a b k a' b' k' r H1 H2. apply IN in H1, H2. assert (X : N.to_nat k = N.to_nat k').
    { rewrite NoDup_nth_error in D1. apply (map_nth_error snd) in H1, H2. cbn [snd] in *. apply D1; [apply nth_error_Some; congruence|]. unfold ms in *. congruence. }
    rewrite X in H1. rewrite H1 in H2. injection H2 as -> ->. split; [lia|auto].
Qed.

(** With a suffix a pair may be learnt twice, and a rank is left out. *)
Theorem C37_rank_hole_refuted : exists tr wc m',
  do_train sort_count pop_first tr wc ex_base = Ok (m', []) /\ small_corpus wc /\ tr_prefix tr = None /\
  map (fun e => fst (snd e)) (b_merges m') = [0; 1; 4; 3; 5]%N.
Proof.
  exists (mkTrainer 0 20 [] None [] None (Some [33%N]) None), [([120; 97], 4); ([120; 97; 33; 98], 3); ([97; 33; 99], 10); ([100; 101], 5)]%N.
  eexists. split; [vm_compute; reflexivity|]. repeat split.
Qed.

(** The trained model is the one that the builder makes of its vocabulary and
    the learnt merges, so that what is known of built models (C32, C33, C34)
    holds of it. *)
Theorem C37_rebuild by_count pop tr wc m :
  count_sort by_count -> train_heap pop -> small_corpus wc -> b_dropout m <> DOutside ->
  exists m' toks ms merges,
    do_train by_count pop tr wc m = Ok (m', tr_special tr) /\ vocabulary m' toks /\ ranked m' ms /\ NoDup (map fst (b_vocab m')) /\ NoDup (map snd (b_vocab m')) /\
    Forall2 (fun mi ab => nth_error toks (N.to_nat (fst (fst mi))) = Some (fst ab) /\ nth_error toks (N.to_nat (snd (fst mi))) = Some (snd ab)) ms merges /\
    bpe_build (b_vocab m') merges (b_dropout m') (b_unk m') (b_prefix m') (b_suffix m') (b_fuse m') (b_fallback m') (b_ignore_merges m') = Ok m'.
Proof.
  intros HC HP SC DO. destruct (train_run by_count pop tr wc m HC HP SC) as (al & st & wtu & st' & P & E & V & ET).
  destruct (loop_tokens pop tr wc al st wtu _ st' HP P E) as (_ & MK & _). pose proof (loop_prefixed pop tr wc al st wtu _ st' HP P E) as PR.
  exists (result tr m (v_words (ts_voc st')) (ts_merges st')), (v_words (ts_voc st')), (ts_merges st'), (map (text_pair (v_words (ts_voc st'))) (ts_merges st')).
  split; [exact ET|]. split; [apply result_vocabulary; apply V|]. split; [apply final_merges_ranked; reflexivity|]. cbn [result b_vocab b_dropout b_unk b_prefix b_suffix b_fuse b_fallback b_ignore_merges].
  split; [rewrite indexed_keys; apply V|]. split; [apply indexed_ids_nodup|]. split; [|apply rebuild; [apply V|exact MK|exact PR|exact DO]].
  clear - MK. induction MK as [|x l (ta & tb & t & A & B & _) _ IH]; [constructor|]. cbn [map]. constructor; [|exact IH]. unfold text_pair. cbn [fst snd]. unfold at_id in *. rewrite (nth_error_nth _ _ _ A), (nth_error_nth _ _ _ B). auto.
Qed.

(** ** C38: the most frequent pair *)
(** Without prefix and suffix the results of merges are new.  If they are, every
    step merges the most frequent pair of the current segmentation (of those
    that may be merged; the smallest ids among equals), everywhere, and training
    ends when the vocabulary is full or no pair is frequent enough. *)
Theorem C38_learns by_count pop tr wc m :
  count_sort by_count -> train_heap pop -> small_corpus wc ->
  exists m' toks first al cp ms,
    do_train by_count pop tr wc m = Ok (m', tr_special tr) /\ vocabulary m' toks /\ kept_alphabet tr wc al /\ first_tokens tr wc al first /\
    spelled_corpus tr first wc cp /\ ranked m' ms /\
    (plain tr -> new_results cp ms) /\
    (new_results cp ms -> exists cp', learns tr first cp ms toks cp').
Proof.
  intros HC HP SC. destruct (train_run by_count pop tr wc m HC HP SC) as (al & st & wtu & st' & P & E & V & ET).
  exists (result tr m (v_words (ts_voc st')) (ts_merges st')), (v_words (ts_voc st')), (v_words (ts_voc st)), al, (combine (ts_words st) (map snd wc)), (ts_merges st').
  split; [exact ET|]. split; [apply result_vocabulary; apply V|]. split; [exact (p_alphabet _ _ _ _ _ P)|]. split; [exact (p_first _ _ _ _ _ P)|].
  assert (SP : spelled_corpus tr (v_words (ts_voc st)) wc (combine (ts_words st) (map snd wc))).
  { pose proof (p_spelled _ _ _ _ _ P) as F. unfold spelled_corpus. clear - F. induction F as [|wn w wc ws Sp _ IH]; cbn [map combine]; constructor; [|exact IH]. cbn [fst snd]. auto. }
  split; [exact SP|]. split; [apply final_merges_ranked; reflexivity|]. split.
  - intros PL. destruct (plain_loop pop tr wc al st wtu _ st' HP PL P E) as (D1 & D2 & _). split; [exact D1|]. intros w n s Hw Hs. apply D2. apply ids_of_in. exists w, s. split; [eapply in_combine_l; exact Hw|]. auto.
  - intros (D1 & D2). exists (combine (ts_words st') (map snd wc)).
    apply (loop_learns pop HP tr (map snd wc) (Z.of_N (corpus_size wc)) (turns (ts_queue st) (ts_words st)) st st' (fun _ => 1) (ids_of (ts_words st)) [] (ts_merges st')); [exact (p_ginv _ _ _ _ _ P)|eapply prepared_finv; exact P|exact E|rewrite (p_merges _ _ _ _ _ P); reflexivity|exact D1|].
    intros x Hx. apply ids_of_in in Hx. destruct Hx as (w & s & Hw & Hs & <-). pose proof (g_len _ _ _ (p_ginv _ _ _ _ _ P)) as L.
    apply In_nth_error in Hw. destruct Hw as (i & Hi). assert (Li : i < length (map snd wc)) by (rewrite <- L; apply nth_error_Some; congruence).
    destruct (nth_error (map snd wc) i) as [n|] eqn:En; [|apply nth_error_None in En; lia]. eapply D2; [eapply nth_combine_in; eassumption|exact Hs].
Qed.

(** Without prefix, suffix and alphabet limit the model depends only on the
    counts: not on the order of the words (the iteration order of hash maps), the
    ties of the heap or the sort. *)
Theorem C38_deterministic by_count pop by_count' pop' tr wc wc' m :
  count_sort by_count -> train_heap pop -> count_sort by_count' -> train_heap pop' -> small_corpus wc -> plain tr -> tr_limit tr = None -> Permutation wc wc' ->
  do_train by_count pop tr wc m = do_train by_count' pop' tr wc' m.
Proof.
  intros HC HP HC' HP' SC PL NL PW.
  assert (SC' : small_corpus wc').
  { unfold small_corpus in *. replace (corpus_size wc') with (corpus_size wc); [exact SC|]. clear - PW. unfold corpus_size. induction PW; cbn [fold_right]; lia. }
  destruct (train_run by_count pop tr wc m HC HP SC) as (al & st & wtu & st' & P & E & V & ET).
  destruct (train_run by_count' pop' tr wc' m HC' HP' SC') as (al2 & st2 & wtu2 & st2' & P2 & E2 & V2 & ET2).
  assert (LR : forall pop wc al st wtu st', train_heap pop -> prepared tr wc al st wtu -> train_loop pop tr (turns (ts_queue st) (ts_words st)) (map snd wc) st = Ok st' ->
    learns tr (v_words (ts_voc st)) (combine (ts_words st) (map snd wc)) (ts_merges st') (v_words (ts_voc st')) (combine (ts_words st') (map snd wc))).
  { clear - PL. intros pop wc al st wtu st' HP P E. destruct (plain_loop pop tr wc al st wtu _ st' HP PL P E) as (D1 & D2 & _).
    apply (loop_learns pop HP tr (map snd wc) (Z.of_N (corpus_size wc)) (turns (ts_queue st) (ts_words st)) st st' (fun _ => 1) (ids_of (ts_words st)) [] (ts_merges st')); [exact (p_ginv _ _ _ _ _ P)|eapply prepared_finv; exact P|exact E|rewrite (p_merges _ _ _ _ _ P); reflexivity|exact D1|exact D2]. }
  pose proof (LR _ _ _ _ _ _ HP P E) as L1. pose proof (LR _ _ _ _ _ _ HP' P2 E2) as L2.
  assert (al2 = al) by (symmetry; exact (kept_alphabet_unique tr wc wc' al al2 NL PW (p_alphabet _ _ _ _ _ P) (p_alphabet _ _ _ _ _ P2))). subst al2.
  pose proof (first_tokens_plain _ _ _ _ PL (p_first _ _ _ _ _ P)) as F1. pose proof (first_tokens_plain _ _ _ _ PL (p_first _ _ _ _ _ P2)) as F2.
  assert (EV : v_words (ts_voc st2) = v_words (ts_voc st)) by congruence. rewrite EV in L2.
  assert (D : NoDup (v_words (ts_voc st))) by (rewrite F1; apply distinct_nodup).
  assert (CP : Permutation (combine (ts_words st) (map snd wc)) (combine (ts_words st2) (map snd wc'))).
  { apply (corpus_perm tr _ D wc wc' PW); [exact (p_spelled _ _ _ _ _ P)|]. pose proof (p_spelled _ _ _ _ _ P2) as X. rewrite EV in X. exact X. }
  destruct (learns_det _ _ _ _ _ _ L1 D _ _ _ _ CP L2) as [EM EK]. rewrite ET, ET2, EM, EK. reflexivity.
Qed.

Example C38_deterministic_example : plain ex_trainer /\ tr_limit ex_trainer = None /\ small_corpus ex_words /\ Permutation ex_words (rev ex_words) /\ rev ex_words <> ex_words.
Proof. split; [split; reflexivity|]. split; [reflexivity|]. split; [vm_compute; reflexivity|]. split; [apply Permutation_rev|discriminate]. Qed.

(** With a suffix the ids depend on the order of the words. *)
Theorem C38_order_refuted : exists tr wc wc' m1 m2,
  small_corpus wc /\ tr_limit tr = None /\ Permutation wc wc' /\
  do_train sort_count pop_first tr wc ex_base = Ok (m1, []) /\ do_train sort_count pop_first tr wc' ex_base = Ok (m2, []) /\
  b_id m1 [97; 33]%N = Some 2%N /\ b_id m2 [97; 33]%N = Some 3%N.
Proof.
  exists (mkTrainer 0 9 [] None [] None (Some [33%N]) None), [([97]%N, 1%N); ([98]%N, 1%N)], [([98]%N, 1%N); ([97]%N, 1%N)]. eexists. eexists.
  split; [vm_compute; reflexivity|]. split; [reflexivity|]. split; [apply perm_swap|]. split; [vm_compute; reflexivity|]. split; [vm_compute; reflexivity|]. auto.
Qed.

(** A corpus that is not small: a word counted 2^31 times has a negative count,
    and nothing is learnt; two words whose pair adds up to 2^31 panic. *)
Theorem C38_wrap_refuted : exists tr, plain tr /\
  (exists m', do_train sort_count pop_first tr [([97; 98]%N, 2147483648%N)] ex_base = Ok (m', []) /\ b_merges m' = []) /\
  (exists m', do_train sort_count pop_first tr [([97; 98]%N, 1%N)] ex_base = Ok (m', []) /\ length (b_merges m') = 1) /\
  do_train sort_count pop_first tr [([97; 98]%N, 1073741824%N); ([97; 98; 99]%N, 1073741824%N)] ex_base = Panic.
Proof.
  exists (mkTrainer 0 9 [] None [] None None None). split; [split; reflexivity|]. split; [eexists; split; vm_compute; reflexivity|]. split; [eexists; split; vm_compute; reflexivity|]. vm_compute. reflexivity.
Qed.

(** ** C39: feeding *)
(** However the sequences are ordered and the partial results combined, the
    counts are the same: those of the words of all sequences. *)
Theorem C39_counts {S E} (process : S -> res E (list str)) t :
  (forall s, In s (leaves t) -> exists ws, process s = Ok ws) ->
  exists m, reduce process t = Ok m /\ NoDup (map fst m) /\
    (forall w n, In (w, n) m <-> n = N.of_nat (occurrences process w (leaves t)) /\ (0 < n)%N).
Proof.
  intros H. destruct (reduce_table process t H) as (m & E1 & T). exists m. split; [exact E1|]. split; [apply T|]. intros w n. exact (table_entries m _ w n T).
Qed.

Theorem C39_same {S E} (process : S -> res E (list str)) t t' :
  (forall s, In s (leaves t) -> exists ws, process s = Ok ws) -> Permutation (leaves t) (leaves t') ->
  exists m m', reduce process t = Ok m /\ reduce process t' = Ok m' /\ Permutation m m'.
Proof.
  intros H P. destruct (reduce_table process t H) as (m & E1 & T1). destruct (reduce_table process t') as (m' & E2 & T2).
  { intros s Hs. apply H. eapply Permutation_in; [symmetry; exact P|exact Hs]. }
  exists m, m'. split; [exact E1|]. split; [exact E2|]. eapply table_perm; [exact T1|]. eapply table_ext; [|exact T2]. cbn. intros w. rewrite (occurrences_perm process w _ _ P). reflexivity.
Qed.

(** An error of the processing of a sequence is never lost, and no other comes. *)
Theorem C39_fails {S E} (process : S -> res E (list str)) t :
  (forall s, In s (leaves t) -> process s <> Panic) ->
  (exists e, reduce process t = Err e) <-> exists s e, In s (leaves t) /\ process s = Err e.
Proof. apply reduce_fails. Qed.

Example C39_example :
  let process := fun s : list str => @Ok unit _ s in
  let a := [[104]; [105]; [104]]%N in let b := [[105]; [106]]%N in
  leaves (RNode (RLeaf a) (RLeaf b)) = [a; b] /\ Permutation [a; b] (leaves (RNode (RNode RId (RLeaf b)) (RLeaf a))) /\
  reduce process (RNode (RLeaf a) (RLeaf b)) = Ok [([104], 2); ([105], 2); ([106], 1)]%N /\
  reduce process (RNode (RNode RId (RLeaf b)) (RLeaf a)) = Ok [([105], 2); ([106], 1); ([104], 2)]%N.
Proof. cbv zeta. split; [reflexivity|]. split; [apply perm_swap|]. split; reflexivity. Qed.

(** With C38: the same sequences in any order, on any threads, train the same model. *)
Theorem C39_training {S E} (process : S -> res E (list str)) t t' by_count pop by_count' pop' tr m wc wc' :
  count_sort by_count -> train_heap pop -> count_sort by_count' -> train_heap pop' -> plain tr -> tr_limit tr = None ->
  Permutation (leaves t) (leaves t') -> (forall s, In s (leaves t) -> process s <> Panic) ->
  reduce process t = Ok wc -> reduce process t' = Ok wc' -> small_corpus wc ->
  do_train by_count pop tr wc m = do_train by_count' pop' tr wc' m.
Proof.
  intros HC HP HC' HP' PL NL P NP E1 E2 SC. apply C38_deterministic; try assumption.
  destruct (C39_same process t t') as (m1 & m2 & X1 & X2 & PM); [|exact P|].
  - intros s Hs. destruct (process s) as [ws|e|] eqn:EP; [eauto| |exfalso; exact (NP s Hs EP)]. exfalso.
    destruct (proj2 (C39_fails process t NP)) as (e' & X); [eauto|]. congruence.
  - rewrite E1 in X1. rewrite E2 in X2. injection X1 as <-. injection X2 as <-. exact PM.
Qed.

(** ** C63: encoding repeats training *)
Lemma in_order_ids ms : forall l l' : list (N * nat), map fst l = map fst l' -> map fst (in_order ms l) = map fst (in_order ms l').
Proof.
  induction ms as [|[[a b] r] ms IH]; intros l l' H; [exact H|]. change (in_order (((a, b), r) :: ms) l) with (in_order ms (replace a b r l)). change (in_order (((a, b), r) :: ms) l') with (in_order ms (replace a b r l')). apply IH.
  clear IH. assert (X : forall n l l', length l <= n -> map fst l = map fst l' -> map fst (replace a b r l) = map fst (replace a b r l')).
  { induction n as [|n IH]; intros u v L E.
    - destruct u; [|cbn in L; lia]. destruct v; [reflexivity|discriminate].
    - destruct u as [|x u]; [destruct v; [reflexivity|discriminate]|]. destruct v as [|x' v]; [discriminate|]. cbn [map] in E. injection E as E0 E. cbn [length] in L.
      destruct u as [|y u]; [destruct v; [cbn [replace map]; rewrite E0; reflexivity|discriminate]|]. destruct v as [|y' v]; [discriminate|]. pose proof E as EF. cbn [map] in E. injection E as E1 E. cbn [length] in L. rewrite !replace_cons2, <- E0, <- E1.
      destruct (N.eqb (fst x) a && N.eqb (fst y) b); cbn [map].
      + f_equal. apply IH; [lia|exact E].
      + rewrite E0. f_equal. apply IH; [cbn [length]; lia|exact EF]. }
  apply (X (length l)); [lia|exact H].
Qed.

Lemma encode_core pop hpop tr wc m al st wtu st' draws : train_heap pop -> heap_ok hpop -> plain tr -> prepared tr wc al st wtu ->
  train_loop pop tr (turns (ts_queue st) (ts_words st)) (map snd wc) st = Ok st' -> vok (ts_voc st') ->
  b_dropout m = DNone \/ b_dropout m = DZero -> b_ignore_merges m = false ->
  let m' := result tr m (v_words (ts_voc st')) (ts_merges st') in
  forall s, s <> [] -> (forall c, In c s -> b_id m' [c] <> None) ->
  exists toks l, bpe_tokenize hpop m' draws s = Ok toks /\ char_symbols m' s l /\ map token_symbol toks = in_order (ts_merges st') l.
Proof.
  intros HP HH PL P E V DO IG M s NE KN.
  destruct (plain_loop pop tr wc al st wtu _ st' HP PL P E) as (_ & _ & D2 & OR & _). destruct (loop_tokens pop tr wc al st wtu _ st' HP P E) as (_ & MK & _). pose proof (loop_prefixed pop tr wc al st wtu _ st' HP P E) as PR.
  assert (BT : built (indexed (v_words (ts_voc st'))) (map (text_pair (v_words (ts_voc st'))) (ts_merges st')) (tr_prefix tr) M).
  { split; [rewrite indexed_keys; apply V|]. exists (b_dropout m), (b_unk m), (tr_suffix tr), (b_fuse m), (b_fallback m), (b_ignore_merges m). apply rebuild; [apply V|exact MK|exact PR|]. destruct DO as [-> | ->]; discriminate. }
  destruct (C32_tokenize hpop _ _ _ M draws s HH BT (indexed_ids_nodup _) NE DO IG) as (toks & l & ET & CS & CA).
  { intros p c q ->. unfold known_char, decorate. cbn [M result b_prefix b_suffix]. rewrite (proj1 PL), (proj2 PL).
    assert (X : (if is_nil q then if is_nil p then [c] else [c] else if is_nil p then [c] else [c]) = [c]) by (destruct (is_nil p), (is_nil q); reflexivity). rewrite X. apply KN. apply in_or_app. right. left. reflexivity. }
  exists toks, l. split; [exact ET|]. split; [exact CS|]. eapply C32_unique; [exact CA|]. apply in_order_canonical; [apply ranked_lookup; [reflexivity|exact D2]|exact OR].
Qed.

(** Any text of known characters: its tokens are the characters after the learnt
    merges, in the order they were learnt. *)
Theorem C63_encode by_count pop hpop tr wc m m' sp draws :
  count_sort by_count -> train_heap pop -> heap_ok hpop -> small_corpus wc -> plain tr -> do_train by_count pop tr wc m = Ok (m', sp) ->
  b_dropout m = DNone \/ b_dropout m = DZero -> b_ignore_merges m = false ->
  exists ms, ranked m' ms /\ NoDup (map fst ms) /\
  forall s, s <> [] -> (forall c, In c s -> b_id m' [c] <> None) ->
  exists toks l, bpe_tokenize hpop m' draws s = Ok toks /\ char_symbols m' s l /\ map token_symbol toks = in_order ms l.
Proof.
  intros HC HP HH SC PL H DO IG. destruct (run_result _ _ _ _ _ _ _ HC HP SC H) as (al & st & wtu & st' & P & E & V & ->).
  destruct (plain_loop pop tr wc al st wtu _ st' HP PL P E) as (_ & _ & D2 & _).
  exists (ts_merges st'). split; [apply final_merges_ranked; reflexivity|]. split; [exact D2|]. intros s NE KN. eapply encode_core; eassumption.
Qed.

(** Without alphabet limit: every word of the corpus is encoded as it stood
    segmented when training ended. *)
Theorem C63_corpus by_count pop hpop tr wc m m' sp draws :
  count_sort by_count -> train_heap pop -> heap_ok hpop -> small_corpus wc -> plain tr -> tr_limit tr = None -> do_train by_count pop tr wc m = Ok (m', sp) ->
  b_dropout m = DNone \/ b_dropout m = DZero -> b_ignore_merges m = false ->
  exists first al cp ms toks cp',
    vocabulary m' toks /\ kept_alphabet tr wc al /\ first_tokens tr wc al first /\ spelled_corpus tr first wc cp /\ ranked m' ms /\ learns tr first cp ms toks cp' /\
    Forall2 (fun wn sn => fst wn = [] \/ exists out, bpe_tokenize hpop m' draws (fst wn) = Ok out /\ map t_id out = map fst (fst sn)) wc cp'.
Proof.
  intros HC HP HH SC PL NL H DO IG. destruct (run_result _ _ _ _ _ _ _ HC HP SC H) as (al & st & wtu & st' & P & E & V & ->).
  pose proof (encode_core pop hpop tr wc m al st wtu st' draws HP HH PL P E V DO IG) as ENC. cbv zeta in ENC. set (M := result tr m (v_words (ts_voc st')) (ts_merges st')) in *.
  destruct (plain_loop pop tr wc al st wtu _ st' HP PL P E) as (D1 & D2 & _). destruct (loop_tokens pop tr wc al st wtu _ st' HP P E) as (_ & _ & rest & ER & _).
  exists (v_words (ts_voc st)), al, (combine (ts_words st) (map snd wc)), (ts_merges st'), (v_words (ts_voc st')). eexists.
  split; [apply result_vocabulary; apply V|]. split; [exact (p_alphabet _ _ _ _ _ P)|]. split; [exact (p_first _ _ _ _ _ P)|]. pose proof (p_spelled _ _ _ _ _ P) as SP.
  split; [unfold spelled_corpus; clear - SP; induction SP as [|wn w wc ws Sp _ IH]; cbn [map combine]; constructor; [cbn [fst snd]; auto|exact IH]|]. split; [apply final_merges_ranked; reflexivity|].
  assert (LE : learns tr (v_words (ts_voc st)) (combine (ts_words st) (map snd wc)) (ts_merges st') (v_words (ts_voc st')) (combine (ts_words st') (map snd wc))).
  { apply (loop_learns pop HP tr (map snd wc) (Z.of_N (corpus_size wc)) (turns (ts_queue st) (ts_words st)) st st' (fun _ => 1) (ids_of (ts_words st)) [] (ts_merges st')); [exact (p_ginv _ _ _ _ _ P)|eapply prepared_finv; exact P|exact E|rewrite (p_merges _ _ _ _ _ P); reflexivity|exact D1|exact D2]. }
  split; [exact LE|]. rewrite (learns_segments _ _ _ _ _ _ LE).
  assert (KN : forall w n c, In (w, n) wc -> In c w -> In [c] (v_words (ts_voc st))).
  { intros w n c Hw Hc. rewrite (first_tokens_plain _ _ _ _ PL (p_first _ _ _ _ _ P)). apply distinct_in, in_or_app. right. apply in_map_iff. exists c. split; [reflexivity|].
    pose proof (p_alphabet _ _ _ _ _ P) as KA. unfold kept_alphabet in KA. cbv zeta in KA. rewrite NL in KA. apply KA. right. eauto. }
  assert (ID : forall c i, In (([c] : str), i) (b_vocab M) -> In [c] (v_words (ts_voc st)) -> nth_error (v_words (ts_voc st)) (N.to_nat i) = Some [c]).
  { intros c i HI HF. cbn [M result b_vocab] in HI. apply indexed_in in HI. apply In_nth_error in HF. destruct HF as (j & HF). destruct V as [DV _]. rewrite NoDup_nth_error in DV.
    assert (X : N.to_nat i = j); [|rewrite X; exact HF]. apply DV; [apply nth_error_Some; congruence|]. rewrite HI, ER, nth_error_app1; [congruence|]. apply nth_error_Some. congruence. }
  assert (DF : NoDup (v_words (ts_voc st))) by (rewrite (first_tokens_plain _ _ _ _ PL (p_first _ _ _ _ _ P)); apply distinct_nodup).
  assert (BI : forall c, In [c] (v_words (ts_voc st)) -> b_id M [c] <> None).
  { intros c HF. assert (HF' : In [c] (v_words (ts_voc st'))) by (rewrite ER; apply in_or_app; left; exact HF). apply In_nth_error in HF'. destruct HF' as (j & HF').
    unfold b_id. cbn [M result b_vocab]. rewrite (proj2 (aget_indexed _ [c] (N.of_nat j) (proj1 V))); [discriminate|]. rewrite Nat2N.id. exact HF'. }
  clear LE. set (toks0 := v_words (ts_voc st)) in *.
  assert (SPL : forall s first w l, (forall c, In c s -> In [c] toks0) -> spelled tr toks0 first s w ->
     length l = length s -> (forall p c q, s = p ++ c :: q -> exists id, In (([c] : str), id) (b_vocab M) /\ nth_error l (length p) = Some (id, len_utf8 c)) -> map fst l = map fst w).
  { clear - PL ID DF. induction s as [|c s IH]; intros first w l KN Sp LN CS; inversion Sp as [|? ? ? i w' K EN Sp'|? ? ? w' K Sp']; subst.
    - destruct l; [reflexivity|discriminate].
    - destruct l as [|[id lc] l]; [discriminate|]. cbn [length] in LN. destruct (CS [] c s eq_refl) as (id' & HI & EL). cbn [length nth_error] in EL. injection EL as -> ->. cbn [map fst]. f_equal.
      + assert (X : affixed (tr_prefix tr) (tr_suffix tr) first (is_nil s) c = [c]) by (unfold affixed; rewrite (proj1 PL), (proj2 PL); destruct first, (is_nil s); reflexivity). rewrite X in EN. pose proof (ID c id' HI K) as EI.
        rewrite NoDup_nth_error in DF. assert (Y : N.to_nat id' = N.to_nat i); [|lia]. apply DF; [apply nth_error_Some; congruence|]. congruence.
      + apply (IH false w' l); [intros x Hx; apply KN; right; exact Hx|exact Sp'|lia|]. intros p x q ->. destruct (CS (c :: p) x q eq_refl) as (id & H1 & H2). exists id. auto.
    - exfalso. apply K. apply KN. left. reflexivity. }
  assert (ALL : forall wn, In wn wc -> fst wn = [] \/ exists out l, bpe_tokenize hpop M draws (fst wn) = Ok out /\ char_symbols M (fst wn) l /\ map token_symbol out = in_order (ts_merges st') l).
  { intros [w n] Hw. cbn [fst]. destruct w as [|c w]; [left; reflexivity|right]. apply ENC; [discriminate|]. intros x Hx. apply BI. eapply KN; eassumption. }
  assert (KW : forall wn, In wn wc -> forall c, In c (fst wn) -> In [c] toks0) by (intros [w n] Hw c Hc; eapply KN; eassumption).
  clear - SP ALL SPL KW PL. induction SP as [|wn w wc ws Sp _ IH]; cbn [map combine]; constructor.
  - cbn [fst snd]. destruct (ALL wn (or_introl eq_refl)) as [X|(out & l & X1 & (L & CS) & X3)]; [left; exact X|right]. exists out. split; [exact X1|].
    assert (Y : map t_id out = map fst (map token_symbol out)) by (rewrite map_map; reflexivity). rewrite Y, X3. apply in_order_ids. apply (SPL (fst wn) true w l); [apply KW; left; reflexivity|exact Sp|exact L|].
    intros p c q EQ. destruct (CS p c q EQ) as (id & H1 & H2). exists id. split; [|exact H2]. unfold decorate in H1. cbn [M result b_prefix b_suffix] in H1. rewrite (proj1 PL), (proj2 PL) in H1. destruct (is_nil p), (is_nil q); exact H1.
  - apply IH; intros x Hx; [apply ALL; right; exact Hx|apply KW; right; exact Hx].
Qed.

Example C63_example : exists m' toks, do_train sort_count pop_first ex_trainer ex_words ex_base = Ok (m', [[60; 117; 62]%N]) /\ plain ex_trainer /\ tr_limit ex_trainer = None /\
  b_dropout ex_base = DNone /\ b_ignore_merges ex_base = false /\
  bpe_tokenize pop_min m' no_draw [104; 117; 103; 115]%N = Ok toks /\ map t_id toks = [10; 6]%N.
Proof. eexists. eexists. split; [vm_compute; reflexivity|]. repeat split; vm_compute; reflexivity. Qed.
