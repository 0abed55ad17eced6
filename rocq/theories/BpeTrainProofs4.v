(** Proofs about training: the state before the first merge, the tables built at the end. *)
From Verif Require Import Base ListFacts AMap EncodingModel BpeWordModel BpeModel BpeTrainModel BpeTrainSpec BpeTrainProofs BpeTrainProofs2 BpeTrainProofs3.
From Coq Require Import ZArith.

Lemma zsum_map h (f : nat -> nat) l : zsum h (map f l) = zsum (fun i => h (f i)) l.
Proof. induction l as [|i l IH]; [reflexivity|]. cbn [map]. rewrite !zsum_cons, IH. reflexivity. Qed.

Lemma wsum_cons f n counts w ws : wsum f (n :: counts) (w :: ws) = (Z.of_N n * f w + wsum f counts ws)%Z.
Proof. unfold wsum. cbn [length seq]. rewrite zsum_cons, <- seq_shift, zsum_map. reflexivity. Qed.

Lemma adjacent_windows p w : (Z.of_N (adjacent (fst p) (snd p) w) = fold_right (fun q a => (if pair_eqb p q then 1 else 0) + a) 0 (windows (map fst w)))%Z.
Proof.
  induction w as [|x w IH]; [reflexivity|]. destruct w as [|y w]; [reflexivity|].
  change (windows (map fst (x :: y :: w))) with ((fst x, fst y) :: windows (map fst (y :: w))). cbn [fold_right]. rewrite <- IH.
  change (adjacent (fst p) (snd p) (x :: y :: w)) with ((if N.eqb (fst x) (fst p) && N.eqb (fst y) (snd p) then 1 else 0) + adjacent (fst p) (snd p) (y :: w))%N.
  unfold pair_eqb. cbn [fst snd]. rewrite (N.eqb_sym (fst p)), (N.eqb_sym (snd p)). destruct (_ && _); lia.
Qed.

Lemma net_windows counts p : forall words pre rest, counts = pre ++ rest -> length words = length rest ->
  net counts p (word_windows (length pre) words) = wsum (occ p) rest words.
Proof.
  induction words as [|w words IH]; intros pre rest E L; [destruct rest; reflexivity|]. destruct rest as [|n rest]; [discriminate|]. cbn [word_windows]. rewrite net_app', wsum_cons.
  specialize (IH (pre ++ [n]) rest). rewrite app_length in IH. cbn [length] in IH. rewrite IH; [|rewrite <- app_assoc; exact E|cbn in L; lia]. f_equal.
  assert (EC : cnt counts (length pre) = Z.of_N n) by (unfold cnt; rewrite E, app_nth2 by lia; rewrite Nat.sub_diag; reflexivity).
  unfold occ. rewrite adjacent_windows. induction (windows (map fst w)) as [|q l IHl]; [cbn; lia|]. cbn [map fold_right]. rewrite net_cons, IHl. cbn [fst snd]. rewrite EC. destruct (pair_eqb p q); lia.
Qed.

Lemma windows_len (l : list N) : length (windows l) <= length l.
Proof. induction l as [|a l IH]; [cbn; lia|]. destruct l as [|b l]; [cbn; lia|]. change (windows (a :: b :: l)) with ((a, b) :: windows (b :: l)). cbn [length] in *. lia. Qed.

Lemma mag_windows counts : forall words pre rest, counts = pre ++ rest -> length words = length rest ->
  (mag counts (word_windows (length pre) words) <= wsum wlen rest words)%Z.
Proof.
  induction words as [|w words IH]; intros pre rest E L; [destruct rest; cbn; lia|]. destruct rest as [|n rest]; [discriminate|]. cbn [word_windows]. rewrite mag_app, wsum_cons.
  specialize (IH (pre ++ [n]) rest). rewrite app_length in IH. cbn [length] in IH. specialize (IH ltac:(rewrite <- app_assoc; exact E) ltac:(cbn in L; lia)).
  assert (EC : cnt counts (length pre) = Z.of_N n) by (unfold cnt; rewrite E, app_nth2 by lia; rewrite Nat.sub_diag; reflexivity).
  assert (M : (mag counts (map (fun p => ((p, 1%Z), length pre)) (windows (map fst w))) = Z.of_N n * Z.of_nat (length (windows (map fst w))))%Z).
  { induction (windows (map fst w)) as [|q l IHl]; [cbn; lia|]. cbn [map length]. rewrite mag_cons, IHl. cbn [snd]. rewrite EC. lia. }
  rewrite M. pose proof (windows_len (map fst w)) as WL. rewrite map_length in WL. unfold wlen at 1.
  assert (Z.of_N n * Z.of_nat (length (windows (map fst w))) <= Z.of_N n * Z.of_nat (length w))%Z by (apply Z.mul_le_mono_nonneg_l; lia). lia.
Qed.

Lemma word_windows_in : forall words k p d i, In ((p, d), i) (word_windows k words) <->
  d = 1%Z /\ k <= i /\ i < k + length words /\ In p (windows (map fst (nth (i - k) words []))).
Proof.
  induction words as [|w words IH]; intros k p d i; cbn [word_windows length].
  - split; [intros []|intros (_ & ? & ? & _); lia].
  - rewrite in_app_iff, IH, in_map_iff. split.
    + intros [(q & E & H)|(-> & H1 & H2 & H3)].
      * injection E as -> <- <-. rewrite Nat.sub_diag. cbn [nth]. repeat split; [lia|lia|exact H].
      * replace (i - k) with (S (i - (k + 1))) by lia. cbn [nth]. repeat split; [lia|lia|exact H3].
    + intros (-> & H1 & H2 & H3). destruct (Nat.eq_dec i k) as [->|N].
      * left. rewrite Nat.sub_diag in H3. exists p. auto.
      * right. replace (i - k) with (S (i - (k + 1))) in H3 by lia. repeat split; [lia|lia|exact H3].
Qed.

Lemma spelled_facts tr toks first s w : spelled tr toks first s w ->
  length w <= length s /\ forall x, In x w -> N.to_nat (fst x) < length toks /\ snd x = 1.
Proof.
  induction 1 as [first|first c s i w K E Sp (L & F)|first c s w K Sp (L & F)].
  - split; [cbn; lia|intros x []].
  - split; [cbn; lia|]. intros x [<-|H]; [|apply F; exact H]. cbn. split; [|reflexivity]. apply nth_error_Some. rewrite E. discriminate.
  - split; [cbn; lia|exact F].
Qed.

Lemma spelled_corpus_size tr toks : forall wc ws, Forall2 (fun (wn : str * N) w => spelled tr toks true (fst wn) w) wc ws ->
  (wsum wlen (map snd wc) ws <= Z.of_N (corpus_size wc))%Z.
Proof.
  induction 1 as [|[s n] w wc ws Sp F IH]; [cbn; lia|]. cbn [map snd fst] in *. rewrite wsum_cons. apply spelled_facts in Sp. destruct Sp as [L _].
  change (corpus_size ((s, n) :: wc)) with (n * N.of_nat (length s) + corpus_size wc)%N. unfold wlen at 1.
  assert (Z.of_N n * Z.of_nat (length w) <= Z.of_N n * Z.of_nat (length s))%Z by (apply Z.mul_le_mono_nonneg_l; lia). lia.
Qed.

Lemma word_count_size tr toks : forall wc ws, Forall2 (fun (wn : str * N) w => spelled tr toks true (fst wn) w) wc ws ->
  forall i w, nth_error ws i = Some w -> 1 <= length w -> (cnt (map snd wc) i <= Z.of_N (corpus_size wc))%Z.
Proof.
  induction 1 as [|[s n] w wc ws Sp F IH]; intros i w' H L; [destruct i; discriminate|]. cbn [map snd fst] in *. change (corpus_size ((s, n) :: wc)) with (n * N.of_nat (length s) + corpus_size wc)%N. unfold cnt in *. apply spelled_facts in Sp. destruct Sp as [L' _].
  destruct i as [|i]; cbn [nth nth_error] in *; [|specialize (IH i w' H L); lia]. injection H as ->.
  assert (Z.of_N n * 1 <= Z.of_N n * Z.of_nat (length s))%Z by (apply Z.mul_le_mono_nonneg_l; lia). lia.
Qed.

Record prepared (tr : trainer) (wc : list (str * N)) (al : list char) (st : tstate) (wtu : list ((N * N) * list nat)) : Prop := mkPrep {
  p_alphabet : kept_alphabet tr wc al;
  p_first : first_tokens tr wc al (v_words (ts_voc st));
  p_ginv : ginv (map snd wc) (Z.of_N (corpus_size wc)) st;
  p_spelled : Forall2 (fun (wn : str * N) w => spelled tr (v_words (ts_voc st)) true (fst wn) w) wc (ts_words st);
  p_pc : forall p, pair_count (ts_pc st) p = wsum (occ p) (map snd wc) (ts_words st);
  p_keys : forall p, In p (map fst (ts_pc st)) -> exists w, In w (ts_words st) /\ In p (windows (map fst w));
  p_sets : sets_ok wtu;
  p_at : forall p i, at_word wtu p i <-> i < length (ts_words st) /\ In p (windows (map fst (nth i (ts_words st) [])));
  p_wkeys : forall p, In p (map fst wtu) <-> exists w, In w (ts_words st) /\ In p (windows (map fst w));
  p_queue : ts_queue st = new_entries (ts_pc st) wtu;
  p_merges : ts_merges st = [] }.

Lemma windows_in (l : list N) : forall p, In p (windows l) -> In (fst p) l /\ In (snd p) l.
Proof.
  induction l as [|a l IH]; intros p H; [destruct H|]. destruct l as [|b l]; [destruct H|]. change (windows (a :: b :: l)) with ((a, b) :: windows (b :: l)) in H.
  destruct H as [<-|H]; [cbn; auto|]. destruct (IH p H) as [H1 H2]. split; right; assumption.
Qed.

Lemma forall2_len {A B} (R : A -> B -> Prop) l l' : Forall2 R l l' -> length l = length l'.
Proof. induction 1; cbn; congruence. Qed.

Lemma forall2_in_r {A B} (R : A -> B -> Prop) l l' : Forall2 R l l' -> forall b, In b l' -> exists a, In a l /\ R a b.
Proof. induction 1 as [|x y l l' H F IH]; intros b Hb; [destruct Hb|]. destruct Hb as [<-|Hb]; [exists x; split; [left; reflexivity|exact H]|]. destruct (IH b Hb) as (a & H1 & H2). exists a. split; [right; exact H1|exact H2]. Qed.

Lemma prepare_spec by_count tr wc : count_sort by_count -> small_corpus wc ->
  exists al st wtu, prepare by_count tr wc = Ok st /\ prepared tr wc al st wtu.
Proof.
  intros BC SC. unfold prepare. destruct (voc_adds (tr_special tr) _ vok_nil) as [V0 W0]. cbn [v_words app] in W0. fold (add_special tr (mkVoc [] [])) in V0, W0.
  unfold compute_alphabet. set (al := kept_chars by_count tr wc). destruct (voc_adds (map (fun c => [c]) al) _ V0) as [V1 W1].
  set (v1 := fold_left voc_add (map (fun c => [c]) al) (add_special tr (mkVoc [] []))) in *. rewrite W0, distinct_app_distinct in W1.
  destruct (tokenize_words_spec tr wc v1 V1) as (ws & v2 & extra & E2 & V2 & W2 & X2 & K2 & F2). rewrite E2. cbn [bind].
  pose proof (forall2_len _ _ _ F2) as LW. set (counts := map snd wc). assert (LC : length ws = length counts) by (unfold counts; rewrite map_length; auto).
  unfold small_corpus in SC. pose proof (spelled_corpus_size _ _ _ _ F2) as SZ. pose proof (wsum_nonneg counts ws) as WN. fold counts in SZ.
  pose proof (count_pairs_apply counts ws [] counts ([], []) eq_refl LC) as CP. cbn [length] in CP. fold counts. rewrite CP.
  2: { clear CP. intros i w H L. pose proof (word_count_size _ _ _ _ F2 i w H ltac:(lia)) as C. fold counts in C. lia. }
  clear CP.
  pose proof (mag_windows counts ws [] counts eq_refl LC) as MW. cbn [length] in MW.
  destruct (apply_changes_spec counts (word_windows 0 ws) [] []) as (pc & wtu & EP & H1 & H2 & H3 & H4 & H5 & H6).
  { apply Forall_forall. intros [[p d] i] H. apply word_windows_in in H. destruct H as (-> & _ & H & _). cbn [fst snd]. split; [left; reflexivity|lia]. }
  { intros p. change (pair_count [] p) with 0%Z. lia. }
  { split; [constructor|intros p l; cbn; discriminate]. }
  rewrite EP. cbn [bind].
  assert (AT : forall p i, at_word wtu p i <-> i < length ws /\ In p (windows (map fst (nth i ws [])))).
  { intros p i. rewrite H4, word_windows_in, Nat.sub_0_r. split; [intros [(l & X & _)|(_ & _ & A & B)]; [discriminate|auto]|]. intros [A B]. right. repeat split; [lia|lia|exact B]. }
  assert (KW : forall p, In p (map fst wtu) <-> exists w, In w ws /\ In p (windows (map fst w))).
  { intros p. rewrite H5. split.
    - intros [[]|(i & H)]. apply word_windows_in in H. destruct H as (_ & _ & A & B). rewrite Nat.sub_0_r in B. exists (nth i ws []). split; [apply nth_In; exact A|exact B].
    - intros (w & A & B). right. apply In_nth with (d := []) in A. destruct A as (i & A & EA). exists i. apply word_windows_in. rewrite Nat.sub_0_r, EA. repeat split; [lia|lia|exact B]. }
  assert (KP : forall p, In p (map fst pc) <-> exists w, In w ws /\ In p (windows (map fst w))).
  { intros p. rewrite H2, <- KW, H5. split.
    - intros [[]|H]. right. apply in_map_iff in H. destruct H as ([[q d] i] & E & H). cbn in E. subst q. exists i. pose proof H as H'. apply word_windows_in in H'. destruct H' as [-> _]. exact H.
    - intros [[]|(i & H)]. right. apply in_map_iff. exists ((p, 1%Z), i). auto. }
  rewrite push_entries_spec; [|intros p Hp; apply KP, KW; exact Hp]. cbn [bind app].
  assert (PC : forall p, pair_count pc p = wsum (occ p) counts ws).
  { intros p. rewrite H1. change (pair_count [] p) with 0%Z. pose proof (net_windows counts p ws [] counts eq_refl LC) as X. cbn [length] in X. rewrite X. lia. }
  assert (SYM : forall w s, In w ws -> In s w -> N.to_nat (fst s) < length (v_words v2) /\ snd s = 1).
  { intros w s Hw Hs. destruct (forall2_in_r _ _ _ F2 w Hw) as (wn & _ & Sp). apply spelled_facts in Sp. apply (proj2 Sp). exact Hs. }
  exists al, (mkTs v2 ws pc (new_entries pc wtu) []), wtu. split; [reflexivity|]. constructor; cbn [ts_voc ts_words ts_pc ts_queue ts_merges]; try assumption; try reflexivity.
  - apply kept_chars_spec. exact BC.
  - exists extra. split; [rewrite W2, W1, distinct_app_distinct, <- app_assoc; reflexivity|]. intros t Ht. destruct (X2 t Ht) as (w & n & p & c & q & A & B & C & D). exists w, n, p, c, q.
    split; [exact A|]. split; [exact B|]. split; [|exact D]. rewrite W1, distinct_in, in_app_iff, in_map_iff in C. destruct C as [C|(d & C & C')]; [left; exact C|]. injection C as ->. right. exact C'.
  - constructor; cbn [ts_voc ts_words ts_pc ts_queue]; try assumption; fold counts.
    + intros w s Hw Hs. destruct (SYM w s Hw Hs) as [A B]. split; [exact A|lia].
    + intros e He. apply new_entries_in in He. destruct He as (_ & A & B).
      assert (G : aget pair_eqb (tm_pair e) wtu = Some (tm_pos e)) by (apply In_aget; [apply pair_eqb_eq|apply H3|exact B]).
      apply (in_map fst) in B. cbn [fst] in B. apply KW in B. destruct B as (w & B1 & B2). pose proof (windows_in _ _ B2) as [B3 B4]. apply in_map_iff in B3, B4. destruct B3 as (s & B3 & B3'), B4 as (s' & B4 & B4').
      constructor.
      * rewrite <- B3. apply (SYM w s B1 B3').
      * rewrite <- B4. apply (SYM w s' B1 B4').
      * apply KP. eauto.
      * apply (proj2 H3) in G. exact G.
      * intros i Hi. assert (J : at_word wtu (tm_pair e) i) by (exists (tm_pos e); auto). apply AT in J. apply J.
    + intros p. rewrite PC. assert (B : (0 <= wsum (occ p) counts ws <= wsum wlen counts ws)%Z).
      { unfold wsum. clear. induction (seq 0 (length ws)) as [|i l IH]; [cbn; lia|]. rewrite !zsum_cons. cbv beta. pose proof (cnt_nonneg counts i). pose proof (occ_nonneg p (nth i ws [])).
        assert (occ p (nth i ws []) <= wlen (nth i ws []))%Z.
        { unfold occ, wlen. induction (nth i ws []) as [|x w IHw]; [cbn; lia|]. destruct w as [|y w]; [cbn; lia|].
          change (adjacent (fst p) (snd p) (x :: y :: w)) with ((if N.eqb (fst x) (fst p) && N.eqb (fst y) (snd p) then 1 else 0) + adjacent (fst p) (snd p) (y :: w))%N. assert (0 <= occ p (y :: w))%Z by apply occ_nonneg. unfold occ in *. specialize (IHw ltac:(assumption)). cbn [length] in *. destruct (_ && _); lia. }
        pose proof (Z.mul_nonneg_nonneg _ _ H H0). assert (cnt counts i * occ p (nth i ws []) <= cnt counts i * wlen (nth i ws []))%Z by (apply Z.mul_le_mono_nonneg_l; lia). lia. }
      lia.
    + lia.
  - intros p Hp. apply KP. exact Hp.
Qed.

(** ** The tables at the end *)
Lemma final_vocab_from ws : NoDup ws -> forall suf pre, ws = pre ++ suf ->
  final_vocab ws (combine suf (map N.of_nat (seq (length pre) (length suf)))) (indexed pre) = Ok (indexed ws).
Proof.
  intros D. induction suf as [|s suf IH]; intros pre E; cbn [length seq map combine final_vocab]; [rewrite app_nil_r in E; subst; reflexivity|].
  rewrite Nat2N.id. assert (EN : nth_error ws (length pre) = Some s) by (rewrite E, nth_error_app2, Nat.sub_diag by lia; reflexivity). rewrite EN. cbn [of_option bind].
  rewrite aset_absent.
  - rewrite <- indexed_snoc. specialize (IH (pre ++ [s])). rewrite app_length in IH. cbn [length] in IH. rewrite Nat.add_1_r in IH. apply IH. rewrite <- app_assoc. exact E.
  - destruct (aget str_eqb s (indexed pre)) as [i|] eqn:G; [|reflexivity]. exfalso. apply aget_In in G; [|apply str_eqb_eq]. apply (in_map fst) in G. cbn [fst] in G. rewrite indexed_keys in G.
    rewrite E in D. apply NoDup_remove_2 in D. apply D. apply in_or_app. left. exact G.
Qed.

Lemma final_vocab_spec v : vok v -> final_vocab (v_words v) (v_ids v) [] = Ok (indexed (v_words v)).
Proof. intros [D E]. rewrite E. exact (final_vocab_from _ D (v_words v) [] eq_refl). Qed.

Lemma final_merges_spec : forall ms i acc p k r,
  (forall q k' r', aget pair_eqb q acc = Some (k', r') -> N.to_nat k' < i) ->
  (aget pair_eqb p (final_merges i ms acc) = Some (k, r) <->
   (exists j, N.to_nat k = i + j /\ nth_error ms j = Some (p, r) /\ forall j' r', j < j' -> nth_error ms j' <> Some (p, r')) \/
   (aget pair_eqb p acc = Some (k, r) /\ forall j' r', nth_error ms j' <> Some (p, r'))).
Proof.
  induction ms as [|[q rq] ms IH]; intros i acc p k r HA; cbn [final_merges].
  - split; [intros H; right; split; [exact H|intros [|j'] r'; discriminate]|]. intros [(j & _ & H & _)|[H _]]; [destruct j; discriminate|exact H].
  - rewrite IH.
    2: { intros q' k' r' H. rewrite (aget_aset _ pair_eqb_eq) in H. destruct (pair_eqb q' q); [injection H as <- <-; rewrite Nat2N.id; lia|apply HA in H; lia]. }
    rewrite (aget_aset _ pair_eqb_eq). destruct (pair_eqb p q) eqn:EQ.
    + apply pair_eqb_eq in EQ. subst q. split.
      * intros [(j & E & H & U)|[H U]].
        -- left. exists (S j). split; [lia|]. split; [exact H|]. intros [|j'] r' L; [lia|]. apply U. lia.
        -- injection H as <- <-. left. exists 0. split; [rewrite Nat2N.id; lia|]. split; [reflexivity|]. intros [|j'] r' L; [lia|]. apply U.
      * intros [(j & E & H & U)|[H U]].
        -- destruct j as [|j].
           ++ right. cbn in H. injection H as ->. split; [f_equal; f_equal; lia|]. intros j' r'. apply (U (S j') r'). lia.
           ++ left. exists j. split; [lia|]. split; [exact H|]. intros j' r' L. apply (U (S j') r'). lia.
        -- exfalso. apply (U 0 rq). reflexivity.
    + assert (NQ : p <> q) by (intros ->; rewrite (proj2 (pair_eqb_eq q q) eq_refl) in EQ; discriminate). split.
      * intros [(j & E & H & U)|[H U]].
        -- left. exists (S j). split; [lia|]. split; [exact H|]. intros [|j'] r' L; [lia|]. apply U. lia.
        -- right. split; [exact H|]. intros [|j'] r'; [cbn; congruence|apply U].
      * intros [(j & E & H & U)|[H U]].
        -- destruct j as [|j]; [cbn in H; congruence|]. left. exists j. split; [lia|]. split; [exact H|]. intros j' r' L. apply (U (S j') r'). lia.
        -- right. split; [exact H|]. intros j' r'. apply (U (S j') r').
Qed.

Lemma final_merges_nodup : forall ms i acc, NoDup (map fst acc) -> NoDup (map fst (final_merges i ms acc)).
Proof. induction ms as [|[q r] ms IH]; intros i acc H; [exact H|]. cbn [final_merges]. apply IH. apply aset_nodup; [apply pair_eqb_eq|exact H]. Qed.

Lemma final_merges_ranked m ms : b_merges m = final_merges 0 ms [] -> ranked m ms.
Proof.
  intros E a b k r. rewrite E. pose proof (final_merges_spec ms 0 [] (a, b) k r ltac:(discriminate)) as SP.
  pose proof (final_merges_nodup ms 0 [] (NoDup_nil _)) as D. split.
  - intros H. apply (In_aget _ pair_eqb_eq _ _ _ D) in H. apply SP in H. destruct H as [(j & EJ & H & U)|[H _]]; [|discriminate]. rewrite EJ. cbn [Nat.add]. auto.
  - intros [H U]. apply aget_In with (eqb := pair_eqb); [apply pair_eqb_eq|]. apply SP. left. exists (N.to_nat k). auto.
Qed.
