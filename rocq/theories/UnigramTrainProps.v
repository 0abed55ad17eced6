(** Theorems about the numeric part of Unigram training. *)
From Coq Require Import Permutation Sorted ZArith.
From Verif Require Import Base StrBytes ListFacts AMap Utf8 EncodingModel BpeModel UnigramModel UnigramSpec UnigramProofs UnigramProps NBestSpec NBestProps MarginalModel MarginalSpec MarginalProps TrainersModel TrainersSpec BpeTrainProofs5 TrainersProofs2 TrainersProps UnigramTrainModel UnigramTrainSpec UnigramTrainProofs UnigramTrainProofs2 UnigramTrainProofs3 UnigramTrainProofs4 UnigramTrainProofs5 UnigramTrainProofs6 UnigramTrainProofs7.

(** ** C75: seeds *)

Section seeds.
  Context {W : Type} (A : arith W) (T : tarith W) (suffix : str -> list (str * N)) (max_piece seed_size : nat) (wc : list (str * N)).
  Notation seeds := (make_seed A T suffix max_piece seed_size wc).

  Definition seed_chars : list (str * N) := map (fun e => ([fst e], snd e)) (sort_by char_before (all_chars wc)).
  Definition seed_texts (k : nat) : list (str * N) := map (fun e => (snd e, fst e)) (firstn k (sort_by piece_before (substr_index suffix max_piece wc))).

  Lemma seeds_are : exists k, seeds = log_shares A T (seed_chars ++ seed_texts k) /\ k <= length (substr_index suffix max_piece wc) /\
    (k < length (substr_index suffix max_piece wc) -> seed_size <= length seed_chars + k) /\ (1 < k -> length seed_chars + k <= seed_size).
  Proof.
    unfold make_seed. destruct (take_seeds_spec T suffix seed_size (sort_by piece_before (substr_index suffix max_piece wc)) (map (fun e => ([fst e], ta_of T (snd e))) (sort_by char_before (all_chars wc)))) as (k & E & L1 & L2 & L3).
    pose proof (Permutation_length (sort_by_perm piece_before (substr_index suffix max_piece wc))) as PL. rewrite map_length in L2, L3.
    exists k. unfold seed_chars. rewrite map_length. rewrite PL in *. split; [|auto]. rewrite E. unfold to_log_prob, log_shares, seed_texts. rewrite !map_app, !map_map. cbn [fst snd].
    assert (FS : forall l1 l2 (z : W), fold_left (fun s p => a_add A s (snd p)) (map (fun e : char * N => ([fst e], ta_of T (snd e))) l1 ++ map (fun e : N * str => (snd e, ta_of T (fst e))) l2) z =
      fold_left (a_add A) (map (fun x : char * N => ta_of T (snd x)) l1 ++ map (fun x : N * str => ta_of T (fst x)) l2) z).
    { induction l1 as [|x l1 IH]; intros l2 z; cbn [map app fold_left]; [|apply IH]. revert z. induction l2 as [|y l2 IH]; intros z; cbn [map fold_left]; [reflexivity|apply IH]. }
    rewrite FS. reflexivity.
  Qed.
  Lemma chars_in t n : In (t, n) seed_chars <-> exists c, t = [c] /\ word_char wc c /\ n = char_total wc c.
  Proof.
    unfold seed_chars. rewrite in_map_iff. split.
    - intros ([c k] & E & I). injection E as <- <-. apply (Permutation_in _ (sort_by_perm char_before (all_chars wc))) in I. apply all_chars_in in I. destruct I as (H1 & H2 & H3). exists c. split; [reflexivity|]. split; [split; assumption|exact H2].
    - intros (c & -> & [H1 H2] & ->). exists (c, char_total wc c). split; [reflexivity|]. apply (Permutation_in _ (Permutation_sym (sort_by_perm char_before (all_chars wc)))). apply all_chars_in. auto.
  Qed.
  Lemma texts_listed k t n : In (t, n) (seed_texts k) -> listed suffix max_piece wc t n.
  Proof.
    unfold seed_texts. intros I. apply in_map_iff in I. destruct I as ([score s] & E & I). injection E as -> ->. assert (J : In (n, t) (sort_by piece_before (substr_index suffix max_piece wc))) by (rewrite <- (firstn_skipn k); apply in_or_app; left; exact I).
    apply (Permutation_in _ (sort_by_perm piece_before _)) in J. apply substr_index_in in J. destruct J as (x & J). exists x. exact J.
  Qed.
End seeds.

(** The seeds: every character of the corpus, with its frequency, and parts of
    the text of 2 to [max_piece] characters, with frequency times length; their scores are the logarithms of
    the shares of these weights. *)
Theorem C75_seeds : forall {W} (A : arith W) (T : tarith W) suffix max_piece seed_size wc, exists weights,
  make_seed A T suffix max_piece seed_size wc = log_shares A T weights /\
  (forall c, word_char wc c -> In ([c], char_total wc c) weights) /\
  (forall t n, In (t, n) weights -> (exists c, t = [c] /\ word_char wc c /\ n = char_total wc c) \/ listed suffix max_piece wc t n) /\
  (lists_once suffix -> NoDup (map fst weights)).
Proof.
  intros W A T suffix max_piece seed_size wc. destruct (seeds_are A T suffix max_piece seed_size wc) as (k & E & _). eexists. split; [exact E|]. split; [|split].
  - intros c Hc. apply in_or_app. left. apply chars_in. eauto.
  - intros t n I. apply in_app_or in I. destruct I as [I|I]; [left; apply chars_in; exact I|right; eapply texts_listed; exact I].
  - intros LO. rewrite map_app. apply NoDup_app_intro.
    + unfold seed_chars. rewrite map_map. cbn [fst]. rewrite <- (map_map fst (fun c : char => [c])). apply FinFun.Injective_map_NoDup; [intros x y X; congruence|].
      apply (Permutation_NoDup (Permutation_map fst (Permutation_sym (sort_by_perm char_before (all_chars wc))))). unfold all_chars. apply all_chars_keys. constructor.
    + unfold seed_texts. rewrite map_map. cbn [fst]. rewrite <- firstn_map. apply firstn_nodup. apply (Permutation_NoDup (Permutation_map snd (Permutation_sym (sort_by_perm piece_before _)))). apply substr_index_once. exact LO.
    + intros t I1 I2. apply in_map_iff in I1, I2. destruct I1 as ([t1 n1] & <- & I1), I2 as ([t2 n2] & E2 & I2). cbn in E2. subst t2. apply chars_in in I1. destruct I1 as (c & -> & _). apply texts_listed in I2. destruct I2 as (n & _ & L & _). cbn in L. lia.
Qed.

(** A part that is listed but is no seed weighs no more than any longer seed, and then there are
    [seed_size] seeds. *)
Theorem C75_heaviest : forall {W} (A : arith W) (T : tarith W) suffix max_piece seed_size wc, exists weights,
  make_seed A T suffix max_piece seed_size wc = log_shares A T weights /\
  forall t n, listed suffix max_piece wc t n -> In (t, n) weights \/
    (seed_size <= length weights /\ forall t' n', In (t', n') weights -> 2 <= length t' -> (n <= n')%N).
Proof.
  intros W A T suffix max_piece seed_size wc. destruct (seeds_are A T suffix max_piece seed_size wc) as (k & E & L1 & L2 & L3). eexists. split; [exact E|]. intros t n (x & LS).
  assert (I : In (n, t) (sort_by piece_before (substr_index suffix max_piece wc))) by (apply (Permutation_in _ (Permutation_sym (sort_by_perm piece_before _))), substr_index_in; exists x; exact LS).
  rewrite <- (firstn_skipn k) in I. apply in_app_or in I. destruct I as [I|I].
  - left. apply in_or_app. right. unfold seed_texts. apply in_map_iff. exists (n, t). auto.
  - right. pose proof (Permutation_length (sort_by_perm piece_before (substr_index suffix max_piece wc))) as PL.
    assert (LK : k < length (substr_index suffix max_piece wc)). { rewrite <- PL. destruct (Nat.lt_ge_cases k (length (sort_by piece_before (substr_index suffix max_piece wc)))) as [|G]; [assumption|]. rewrite skipn_all2 in I by exact G. destruct I. }
    assert (LT : length (seed_texts suffix max_piece wc k) = k) by (unfold seed_texts; rewrite map_length, firstn_length; lia).
    split; [rewrite app_length, LT; apply L2; exact LK|]. intros t' n' I' L'. apply in_app_or in I'. destruct I' as [I'|I']; [apply chars_in in I'; destruct I' as (c & -> & _); cbn in L'; lia|].
    unfold seed_texts in I'. apply in_map_iff in I'. destruct I' as ([score s] & EE & I'). injection EE as -> ->.
    assert (SO : StronglySorted (fun a b => piece_before b a = false) (sort_by piece_before (substr_index suffix max_piece wc))).
    { apply sort_by_sorted with (ok := fun _ => True); [intros a b _ _; apply piece_before_asym|intros a b c _ _ _; apply piece_before_neg|apply Forall_forall; auto]. }
    rewrite <- (firstn_skipn k) in SO. revert SO I I'. generalize (firstn k (sort_by piece_before (substr_index suffix max_piece wc))) (skipn k (sort_by piece_before (substr_index suffix max_piece wc))). clear.
    induction l as [|a l IH]; intros r SO I I'; [destruct I'|]. cbn in SO. inversion SO as [|? ? SO' FA]; subst. destruct I' as [->|I']; [|eapply IH; eauto]. rewrite Forall_forall in FA. specialize (FA (n, t) ltac:(apply in_or_app; right; exact I)). cbn in FA.
    unfold piece_before in FA. cbn [fst snd] in FA. apply orb_false_iff in FA. destruct FA as [FA _]. apply N.ltb_ge in FA. exact FA.
Qed.

(** Every seed is part of a word of the corpus. *)
Theorem C75_seed_parts : forall {W} (A : arith W) (T : tarith W) suffix max_piece seed_size wc t, lists_parts suffix ->
  In t (map fst (make_seed A T suffix max_piece seed_size wc)) -> ~ In 0%N t /\ (length t = 1 \/ 2 <= length t <= max_piece) /\ exists w n, In (w, n) wc /\ inside t w.
Proof.
  intros W A T suffix max_piece seed_size wc t LP I. destruct (C75_seeds A T suffix max_piece seed_size wc) as (ws & E & _ & HI & _). rewrite E in I. unfold log_shares in I. rewrite map_map in I. cbn [fst] in I. apply in_map_iff in I. destruct I as ([t' n] & <- & I). cbn [fst].
  destruct (HI t' n I) as [(c & -> & [NZ (w & k & Hw & Hc)] & _)|(k & Hs & L & NZ & _)].
  - split; [intros [X|[]]; congruence|]. split; [left; reflexivity|]. exists w, k. split; [exact Hw|]. apply in_split in Hc. destruct Hc as (a & b & ->). exists a, b. reflexivity.
  - split; [exact NZ|]. split; [right; exact L|]. apply flat_inside; [intros ->; cbn in L; lia|exact NZ|]. eapply LP. exact Hs.
Qed.

(** ** The E step *)

(** With exact numbers, the expected count of a token is the sum over the words, times their counts, of
    how often the token is in a segmentation, on average weighted by likelihood; however the
    work is shared among the threads. *)
Theorem C75_counts : forall {W} (A : arith W) (T : tarith W) m u threads plan wc one inv segs step, made A m -> u_unk m = Some u -> Forall (fun e => text_ok (fst e)) wc ->
  exact_marith A (t_marith A T) (a_zero A) one inv -> Forall (fun e => all_segmentations A m (fst e) (segs (fst e))) wc -> (forall n x, ta_is_nan T (ta_mul T (ta_of T n) x) = false) ->
  Forall (fun e => unk_apart m (fst e)) wc -> leaves (plan step) = length (chunks threads wc) ->
  exists e, run_e_step A T threads plan step m wc = Ok e /\ length e = length (u_vocab m) /\
    forall id, id < length (u_vocab m) -> nth id e (a_zero A) =
      wsum A (map (fun w => ta_mul T (ta_of T (snd w)) (ta_mul T (weighted_count (t_marith A T) (a_zero A) one (N.of_nat id) (segs (fst w))) (inv (evidence (t_marith A T) (a_zero A) one (segs (fst w)))))) wc).
Proof. intros W A T m u threads plan wc one inv segs step Hm Hu Hwc HX HS HN HA LV. exact (e_step_exact A T m Hm u Hu threads plan wc Hwc one inv HX segs HS HN HA step LV). Qed.

(** With any numbers, it ends, unless the likelihood of a word is not a number. *)
Theorem C75_e_step : forall {W} (A : arith W) (T : tarith W) m u threads plan wc step, made A m -> u_unk m = Some u -> Forall (fun e => text_ok (fst e)) wc ->
  (exists e, run_e_step A T threads plan step m wc = Ok e /\ length e = length (u_vocab m)) \/
  (run_e_step A T threads plan step m wc = Panic /\ exists s n la e e' z, In (s, n) wc /\ populate_nodes A m s = Ok la /\ populate_marginal A (t_marith A T) la (ta_of T n) e = Ok (e', z) /\ ta_is_nan T z = true).
Proof. intros W A T m u threads plan wc step Hm Hu Hwc. exact (e_step_total A T m Hm u Hu threads plan wc Hwc step). Qed.

(** ** Pruning *)

(** What is kept: the unknown token; the pieces that cannot be written otherwise; then those whose
    removal would lose most, until there are enough.  Dropped are unused pieces and those with
    the least loss.  It fails only if a loss is not a number. *)
Theorem C75_prune : forall {W} (A : arith W) (T : tarith W) m whole threads plan fuel pop vocab_size wc step,
  made A m -> u_unk m = Some 0%N -> whole_laws A T whole -> loss_order A T -> bag_pop pop -> Forall (fun e => text_ok (fst e)) wc ->
  Forall (fun p => text_ok (fst p) /\ length (fst p) <= 16 /\ 3 * 2 ^ length (fst p) < fuel) (tl (u_vocab m)) -> leaves (plan step) = length (chunks threads wc) ->
  exists segs alt, Forall2 (fun e seg => chosen A m (fst e) seg) wc segs /\
    (forall i p, 0 < i -> nth_error (u_vocab m) i = Some p -> alt i = [] \/ exists seg, segmentation A m (fst p) seg /\ alt i = seg_ids seg) /\
    (forall i p ok, 0 < i -> nth_error (u_vocab m) i = Some p -> alt i <> [] -> exact_laws A ok -> scores_in A ok m (fst p) -> heap_pop A pop ->
       exists first second, best A m (fst p) first /\ length first = 1 /\ segmentation A m (fst p) second /\ second <> first /\ alt i = seg_ids second /\
       forall seg, segmentation A m (fst p) seg -> seg = first \/ a_gtb A (total A seg) (total A second) = false) /\
    let n := length (u_vocab m) in
    let words := combine (map snd wc) segs in
    let loss i := removal_loss A T n words i (alt i) in
    let size := Nat.max ((vocab_size * 11) / 10) (ta_shrink T n) in
    let result := prune_pieces A T threads plan fuel pop vocab_size step m (u_vocab m) wc in
    (result = Panic /\ exists i, 0 < i < n /\ ta_is_nan T (loss i) = true) \/
    exists new keep ranked k, result = Ok new /\ picked (u_vocab m) (0 :: keep ++ map fst (firstn k ranked)) new /\
      NoDup (keep ++ map fst ranked) /\ StronglySorted (fun a b => a_gtb A (snd b) (snd a) = false) ranked /\
      (forall i, In i keep -> 0 < i < n /\ alt i = []) /\
      (forall i x, In (i, x) ranked -> 0 < i < n /\ alt i <> [] /\ x = loss i) /\
      (forall i p, 0 < i -> nth_error (u_vocab m) i = Some p -> (forall x y, segmentation A m (fst p) x -> segmentation A m (fst p) y -> x = y) -> In i keep) /\
      (forall i, 0 < i < n -> In i keep \/ In i (map fst ranked) \/ ta_is_zero T (use_total A T words i) = true \/ ta_is_nan T (use_total A T words i) = true) /\
      k <= length ranked /\ (k < length ranked -> length new = size) /\ (length keep < size -> length new <= size).
Proof.
  intros W A T m whole threads plan fuel pop vocab_size wc step Hm Hu HW HO HP Hwc Hp LV.
  assert (NE : u_vocab m <> []). { intros X. pose proof (wf_unk _ (made_wf A m Hm) _ Hu) as Y. rewrite X in Y. cbn in Y. lia. }
  destruct (prune_spec A T m Hm Hu whole HW threads plan fuel pop HP vocab_size wc Hwc Hp NE step LV) as (segs & alts & FS & LA & HB & R). cbn zeta in R.
  exists segs, (fun i => snd (nth i alts (false, []))). split; [exact FS|].
  assert (TL : forall i p, 0 < i -> nth_error (u_vocab m) i = Some p -> text_ok (fst p) /\ length (fst p) <= 16 /\ 3 * 2 ^ length (fst p) < fuel).
  { intros i p P E. rewrite Forall_forall in Hp. apply Hp. destruct (u_vocab m) as [|q ps]; [congruence|]. destruct i as [|i]; [lia|]. cbn in E. cbn. eapply nth_error_In; eauto. }
  assert (AT : forall i p, 0 < i -> nth_error (u_vocab m) i = Some p -> alternatives A fuel pop m (fst p) = Ok (nth i alts (false, [])) /\ nth_error alts i = Some (nth i alts (false, []))).
  { intros i p P E. destruct (HB i p P E) as (ka & E1 & E2). rewrite (nth_error_nth _ _ _ E1). auto. }
  split; [|split].
  - intros i p P E. destruct (TL i p P E) as (T1 & T2 & T3). destruct (AT i p P E) as [E1 _]. destruct (alternatives_total A m Hm 0%N Hu fuel pop HP (fst p) T1 T2 T3) as (b & ids & E2 & _ & Q & _). rewrite E1 in E2. injection E2 as ->. cbn [snd]. destruct Q as [Q|[_ Q]]; [left; exact Q|right; exact Q].
  - intros i p ok P E NA HX HI HH. destruct (TL i p P E) as (T1 & T2 & T3). destruct (AT i p P E) as [E1 _]. destruct (nth i alts (false, [])) as [b ids] eqn:EK. cbn [snd] in *. destruct (alternatives_second A m Hm 0%N Hu fuel pop HP ok (fst p) b ids HX HI HH T1 T2 T3 E1) as [(_ & X & _)|[(_ & X & _)|(_ & f & s & X)]]; [congruence|congruence|]. exists f, s. exact X.
  - cbn zeta. destruct R as [(EP & i & Hi & _ & NN)|(new & keep & losses & k & EP & PK & L1 & L2 & L3 & ND & KA & LS & KE & DR)]; [left; split; [exact EP|]; exists i; auto|right].
    pose proof (sort_by_perm (fun a b : nat * W => a_gtb A (snd a) (snd b)) losses) as PM. set (ranked := sort_by _ losses) in *.
    exists new, keep, ranked, k. split; [exact EP|]. split; [exact PK|]. split; [|split; [|split; [|split; [|split; [|split; [|split; [|split]]]]]]].
    + apply (Permutation_NoDup (l := keep ++ map fst losses)); [apply Permutation_app_head, Permutation_map, Permutation_sym, PM|exact ND].
    + apply (sort_by_sorted (fun a b : nat * W => a_gtb A (snd a) (snd b)) (fun a => ta_is_nan T (snd a) = false)).
      * intros a b Ha Hb. apply (proj1 HO); assumption.
      * intros a b c Ha Hb Hc. apply (proj2 HO); assumption.
      * apply Forall_forall. intros [i x] I. apply LS in I. cbn. tauto.
    + exact KA.
    + intros i x I. apply (Permutation_in _ PM) in I. destruct (LS i x I) as (X1 & X2 & X3 & _). auto.
    + intros i p P E UQ. apply KE; [split; [exact P|apply nth_error_Some; congruence]|]. destruct (AT i p P E) as [E1 E2]. rewrite E2. f_equal. destruct (TL i p P E) as (T1 & T2 & T3). destruct (alternatives_total A m Hm 0%N Hu fuel pop HP (fst p) T1 T2 T3) as (b & ids & E3 & _ & _ & Q). destruct (Q UQ) as [-> ->]. congruence.
    + intros i Hi. destruct (DR i Hi) as [X|[X|X]]; [auto| |tauto]. right. left. apply (Permutation_in _ (Permutation_map fst (Permutation_sym PM))). exact X.
    + rewrite (Permutation_length PM). exact L1.
    + rewrite (Permutation_length PM). exact L2.
    + intros L. apply L3. lia.
Qed.

(** The segmentations that pruning looks at are best, when the scores of the tokens in the text can be compared. *)
Theorem C75_chosen : forall {W} (A : arith W) m u ok s, made A m -> u_unk m = Some u -> text_ok s ->
  exists seg, (forall seg', chosen A m s seg' <-> seg' = seg) /\ (scores_in A ok m s -> best A m s seg).
Proof.
  intros W A m u ok s Hm Hu Hs. destruct (chosen_exists A m Hm u Hu s Hs) as (seg & C). exists seg. split.
  - intros seg'. split; [intros C'; eapply chosen_fun; eauto|intros ->; exact C].
  - intros (HL & HI & HU). apply (chosen_best A m Hm u Hu ok s seg HL Hs); [|exact HU|exact C]. intros t id w LE (a & b & E). exact (HI t id w a b LE E).
Qed.

(** ** The whole training *)

Section whole.
  Context {W : Type} (A : arith W) (T : tarith W).
  Context (missing : W -> nat -> W) (nan : W) (enough : W -> bool) (rescore : W -> W -> W) (arrange : list str -> list str).
  Context (suffix : str -> list (str * N)) (max_piece seed_size threads : nat) (plan : nat -> rtree)
          (fuel : nat) (pop : list (hypothesis W) -> option (hypothesis W * list (hypothesis W))).

  Lemma prune_drops tr wc : only_drops (prune_on A T threads plan fuel pop tr wc).
  Proof.
    intros k ps ps' H. unfold prune_on in H. destruct (uni_from A ps (Some 0%N) false) as [m| |]; try discriminate. destruct (prune_pieces A T threads plan fuel pop (ut_vocab_size tr) k m ps wc) as [new| |] eqn:E; try discriminate. injection H as ->.
    destruct (prune_shape _ _ _ _ _ _ _ _ _ _ _ _ E) as (alts & vs & fr & iv & keep & losses & j & _ & _ & [_ F] & _). clear - F. induction F as [|i x is xs Hx F IH]; intros t Ht; [destruct Ht|]. destruct Ht as [<-|Ht]; [|apply IH; exact Ht]. apply in_map. eapply nth_error_In; eauto.
  Qed.

  (** What is learned: first the special tokens, then the characters of the corpus and of the initial
      alphabet and parts of single words of the corpus, not longer than asked for, without NUL. *)
  Theorem C75_learns rounds tr wc m sp : any_order arrange -> lists_parts suffix ->
    uni_do_train A T missing nan enough rescore arrange suffix max_piece seed_size threads plan fuel pop rounds tr wc = Ok (m, sp) ->
    exists front pieces, sp = ut_special tr /\ map fst (u_vocab m) = front ++ ut_special tr ++ pieces /\ unk_in_front (ut_unk tr) (ut_special tr) front /\ NoDup pieces /\
      (forall c, corpus_char wc (ut_initial tr) c -> In [c] pieces) /\
      (forall t, In t pieces -> (exists c, t = [c] /\ corpus_char wc (ut_initial tr) c) \/ (~ In 0%N t /\ 2 <= length t <= max_piece /\ exists w n, In (w, n) wc /\ inside t w)).
  Proof.
    intros AO LP H. destruct (C59_unigram _ _ _ _ _ _ _ _ _ _ _ _ _ _ _ AO (prune_drops tr wc) H) as (front & pieces & E1 & E2 & E3 & E4 & E5 & E6 & _). exists front, pieces. repeat (split; [assumption|]).
    intros t Ht. destruct (E6 t Ht) as [X|[X _]]; [left; exact X|]. destruct (C75_seed_parts A T suffix max_piece seed_size wc t LP X) as (NZ & L & w & n & Hw & HI). destruct L as [L|L]; [left|right; split; [exact NZ|]; split; [exact L|]; exists w, n; auto].
    destruct t as [|c [|d t]]; cbn in L; try lia. exists c. split; [reflexivity|]. right. exists w, n. split; [exact Hw|]. destruct HI as (a & b & ->). apply in_or_app. right. left. reflexivity.
  Qed.

  (** Words of the corpus can be tokenized without unknown tokens. *)
  Theorem C75_spells ok rounds tr wc m sp w n : any_order arrange ->
    uni_do_train A T missing nan enough rescore arrange suffix max_piece seed_size threads plan fuel pop rounds tr wc = Ok (m, sp) ->
    scores_ok A ok m -> Forall (fun e => text_ok (fst e)) (u_vocab m) -> In (w, n) wc -> text_ok w -> (forall u, ut_unk tr = Some u -> forall a b, w <> a ++ u ++ b) ->
    exists toks, uni_tokenize A m None w = Ok toks /\ concat (map t_value toks) = w /\ Forall (fun t => uni_token_to_id m (t_value t) = Some (t_id t) /\ u_unk m <> Some (t_id t)) toks.
  Proof. intros AO H. eapply C64_unigram; [exact AO|apply prune_drops|exact H]. Qed.
End whole.

(** ** Cases *)

(** Numbers of an example: integers, logarithms to the base 2 rounded down, counts of the E step times 2^20. *)
Definition z_tarith : tarith Z :=
  mkTarith (fun vmin vmax => Z.gtb vmax (vmin + 50)) (fun vmin vmax => if Z.eqb vmin vmax then vmax + 1 else vmax)%Z Z.sub (fun x => Z.shiftl 1 (x + 20)) Z.mul (fun a b => Z.div (1000 * a) b) Z.log2
           Z.of_N (Z.eqb 0) (fun _ => false) (fun n => (n * 3) / 4).

(** All parts of a text, with their frequencies. *)
Definition parts_of (text : str) : list str := flat_map (fun i => map (fun j => firstn j (skipn i text)) (seq 1 (length text - i))) (seq 0 (length text)).
Definition ex_suffix (text : str) : list (str * N) := map (fun s => (s, N.of_nat (count_occ (list_eq_dec N.eq_dec) (parts_of text) s))) (nodup (list_eq_dec N.eq_dec) (parts_of text)).
Lemma ex_suffix_ok : lists_parts ex_suffix /\ lists_once ex_suffix.
Proof.
  split.
  - intros text s n I. unfold ex_suffix in I. apply in_map_iff in I. destruct I as (t & E & I). injection E as -> _. apply nodup_In in I. unfold parts_of in I. apply in_flat_map in I. destruct I as (i & _ & I). apply in_map_iff in I. destruct I as (j & <- & _).
    exists (firstn i text), (skipn j (skipn i text)). rewrite firstn_skipn. rewrite firstn_skipn. reflexivity.
  - intros text. unfold ex_suffix. rewrite map_map. cbn [fst]. rewrite map_id. apply NoDup_nodup.
Qed.

Definition ex_words : list (str * N) := [([97; 98; 97; 98], 4); ([97; 98], 3); ([98], 2)]%N.
Example C75_seeds_ex : map fst (make_seed z_arith z_tarith ex_suffix 3 6 ex_words) = [[98]; [97]; [97; 98]; [98; 97; 98]; [97; 98; 97]; [98; 97]]%N.
Proof. vm_compute. reflexivity. Qed.

Definition ex_do_train (size rounds : nat) (wc : list (str * N)) : res ut_error (unigram Z * list str) :=
  uni_do_train z_arith z_tarith (fun lo k => (lo + Z.of_nat k)%Z) 0%Z (fun x => Z.leb 524288 x) (fun sum c => Z.log2 c - Z.log2 sum)%Z (fun l => l) ex_suffix 3 6 2 (fun _ => RNode RLeaf (RNode RLeaf RLeaf)) 25 z_pop rounds (mkUt size 1 [] [] (Some [63%N])) wc.
Example C75_learns_ex : exists m, ex_do_train 4 3 ex_words = Ok (m, []) /\ map fst (u_vocab m) = [[63]; [97; 98]; [98]; [97]]%N.
Proof. eexists. split; vm_compute; reflexivity. Qed.

Lemma z_whole : whole_laws z_arith z_tarith (fun _ => True).
Proof. constructor; cbn; intros; trivial; lia. Qed.
Lemma z_order : loss_order z_arith z_tarith.
Proof. split; cbn; intros; rewrite Z.gtb_ltb in *; lia. Qed.

(** Six pieces; one that is never used and the one with the least loss are dropped. *)
Definition ex_pieces : list (str * Z) := [(training_unk, 0%Z); ([97], (-4)%Z); ([98], (-4)%Z); ([97; 98], (-3)%Z); ([98; 97], (-9)%Z); ([98; 98], (-4)%Z)]%N.
Definition ex_counts : list (str * N) := [([97; 98; 98; 98], 4); ([97; 98], 30); ([98], 2)]%N.
Definition ex_plan (_ : nat) : rtree := RNode RLeaf (RNode RLeaf RLeaf).
Example C75_prune_ex : exists m, made z_arith m /\ u_vocab m = ex_pieces /\ u_unk m = Some 0%N /\
  whole_laws z_arith z_tarith (fun _ => True) /\ loss_order z_arith z_tarith /\ heap_pop z_arith z_pop /\ exact_laws z_arith (fun _ => True) /\
  Forall (fun p => text_ok (fst p) /\ length (fst p) <= 16 /\ 3 * 2 ^ length (fst p) < 13) (tl ex_pieces) /\ leaves (ex_plan 0) = length (chunks 2 ex_counts) /\
  exists new, prune_pieces z_arith z_tarith 2 ex_plan 13 z_pop 2 0 m ex_pieces ex_counts = Ok new /\ map fst new = [training_unk; [97]; [98]; [97; 98]]%N.
Proof.
  destruct (uni_from z_arith ex_pieces (Some 0%N) false) as [m| |] eqn:E; try discriminate. exists m.
  split; [exists ex_pieces, (Some 0%N), false, m, (u_min m); split; [exact E|]; split; [repeat constructor|destruct m; reflexivity]|]. vm_compute in E. injection E as <-.
  split; [reflexivity|]. split; [reflexivity|]. split; [exact z_whole|]. split; [exact z_order|]. split; [exact z_heap|]. split; [exact z_exact|]. split; [repeat constructor; vm_compute; lia|]. split; [vm_compute; reflexivity|].
  eexists. split; vm_compute; reflexivity.
Qed.

(** Integers with NaN. *)
Definition o_lift (f : Z -> Z -> Z) (a b : option Z) : option Z := match a, b with Some x, Some y => Some (f x y) | _, _ => None end.
Definition o_arith : arith (option Z) := mkArith (Some 0%Z) (Some 1000%Z) (o_lift Z.add) (fun a b => match a, b with Some x, Some y => Z.gtb x y | _, _ => false end) (option_map (fun x => (x - 10)%Z)).
Definition o_tarith : tarith (option Z) :=
  mkTarith (fun a b => match a, b with Some x, Some y => ta_far z_tarith x y | _, _ => false end) (o_lift (ta_near z_tarith)) (o_lift Z.sub) (option_map (ta_exp z_tarith)) (o_lift Z.mul) (o_lift (ta_div z_tarith)) (option_map Z.log2)
           (fun n => Some (Z.of_N n)) (fun x => match x with Some x => Z.eqb 0 x | None => false end) (fun x => match x with None => true | _ => false end) (fun n => (n * 3) / 4).
Definition o_do_train (size rounds : nat) (wc : list (str * N)) : res ut_error (unigram (option Z) * list str) :=
  uni_do_train o_arith o_tarith (fun lo k => option_map (fun x => (x + Z.of_nat k)%Z) lo) None (fun x => match x with Some x => Z.leb 524288 x | None => true end) (o_lift (fun sum c => Z.log2 c - Z.log2 sum)%Z) (fun l => l) ex_suffix 2 6 1 (fun _ => RLeaf) 13
    (fun l => match l with h :: r => Some (h, r) | [] => None end) rounds (mkUt size 1 [] [] (Some [63%N])) wc.

(** A corpus with a word that contains ["<UNK>"] makes the training fail: the
    unknown token has no score while training, and with it the likelihood of the word is not a number. *)
Theorem C75_unk_refuted : exists size wc, (forall rounds, o_do_train size rounds wc = Panic) /\ Forall (fun e => text_ok (fst e)) wc /\
  exists wc' m sp, o_do_train size 1 wc' = Ok (m, sp) /\ map snd wc' = map snd wc /\ Forall2 (fun a b => length (fst a) = length (fst b)) wc' wc.
Proof.
  exists 10, [(training_unk, 1%N)]. split; [|split; [repeat constructor|]].
  - intros [|rounds]; vm_compute; reflexivity.
  - exists [([60; 85; 78; 74; 62], 1)]%N. eexists _, _. split; [vm_compute; reflexivity|]. split; [reflexivity|]. repeat constructor.
Qed.
