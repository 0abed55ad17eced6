(** Proofs about training: tokens, alphabet, first segmentations. *)
From Verif Require Import Base ListFacts AMap EncodingModel BpeWordModel BpeModel BpeTrainModel BpeTrainSpec.
From Coq Require Import ZArith.

Lemma pair_eqb_eq a b : pair_eqb a b = true <-> a = b.
Proof. destruct a, b. unfold pair_eqb. cbn [fst snd]. rewrite andb_true_iff, !N.eqb_eq. split; [intros [-> ->]; reflexivity|intros H; injection H as -> ->; auto]. Qed.

(** ** Tokens *)
Definition indexed (ws : list str) : list (str * N) := combine ws (map N.of_nat (seq 0 (length ws))).
Definition vok (v : voc) : Prop := NoDup (v_words v) /\ v_ids v = indexed (v_words v).

Lemma combine_app {A B} (a a' : list A) : forall (b b' : list B), length a = length b -> combine (a ++ a') (b ++ b') = combine a b ++ combine a' b'.
Proof. induction a as [|x a IH]; intros [|y b] b' H; cbn in *; try discriminate; [reflexivity|]. f_equal. apply IH. lia. Qed.

Lemma indexed_snoc ws s : indexed (ws ++ [s]) = indexed ws ++ [(s, N.of_nat (length ws))].
Proof.
  unfold indexed. rewrite app_length. cbn [length]. rewrite Nat.add_1_r, seq_S, map_app, combine_app; [reflexivity|].
  rewrite map_length, seq_length. reflexivity.
Qed.

Lemma indexed_len ws : length (indexed ws) = length ws.
Proof. unfold indexed. rewrite combine_length, map_length, seq_length. lia. Qed.

Lemma indexed_keys ws : map fst (indexed ws) = ws.
Proof.
  induction ws as [|s ws IH] using rev_ind; [reflexivity|]. rewrite indexed_snoc, map_app, IH. reflexivity.
Qed.

Lemma indexed_in ws s i : In (s, i) (indexed ws) <-> nth_error ws (N.to_nat i) = Some s.
Proof.
  induction ws as [|t ws IH] using rev_ind; [destruct (N.to_nat i); cbn; split; [tauto|discriminate|tauto|discriminate]|].
  rewrite indexed_snoc, in_app_iff, IH. cbn [In]. split.
  - intros [H|[H|[]]].
    + rewrite nth_error_app1; [exact H|]. apply nth_error_Some. congruence.
    + injection H as <- <-. rewrite Nat2N.id, nth_error_app2 by lia. rewrite Nat.sub_diag. reflexivity.
  - intros H. destruct (Nat.ltb_spec (N.to_nat i) (length ws)) as [L|L].
    + rewrite nth_error_app1 in H by exact L. auto.
    + rewrite nth_error_app2 in H by exact L. right. left. destruct (N.to_nat i - length ws) as [|k] eqn:E; cbn in H; [|destruct k; discriminate].
      injection H as <-. f_equal. lia.
Qed.

Lemma aget_indexed ws s i : NoDup ws -> aget str_eqb s (indexed ws) = Some i <-> nth_error ws (N.to_nat i) = Some s.
Proof.
  intros D. rewrite <- indexed_in. split.
  - apply aget_In. apply str_eqb_eq.
  - apply In_aget; [apply str_eqb_eq|]. rewrite indexed_keys. exact D.
Qed.

Lemma amem_indexed ws s : amem str_eqb s (indexed ws) = true <-> In s ws.
Proof.
  unfold amem. destruct (aget str_eqb s (indexed ws)) eqn:E.
  - apply aget_In in E; [|apply str_eqb_eq]. apply (in_map fst) in E. rewrite indexed_keys in E. tauto.
  - apply aget_none in E; [|apply str_eqb_eq]. rewrite indexed_keys in E. split; [discriminate|contradiction].
Qed.

Lemma amem_indexed_false ws s : amem str_eqb s (indexed ws) = false <-> ~ In s ws.
Proof. rewrite <- amem_indexed. destruct (amem _ _ _); split; congruence. Qed.

Lemma aset_absent {K V} (eqb : K -> K -> bool) (k : K) (v : V) m : aget eqb k m = None -> aset eqb k v m = m ++ [(k, v)].
Proof.
  induction m as [|[k' v'] m IH]; cbn; [reflexivity|]. destruct (eqb k k'); [discriminate|]. intros H. rewrite IH by exact H. reflexivity.
Qed.

Lemma NoDup_snoc {A} (l : list A) a : NoDup l -> ~ In a l -> NoDup (l ++ [a]).
Proof.
  induction l as [|x l IH]; intros D N; [constructor; [intros []|constructor]|]. inversion D as [|? ? D1 D2]; subst. cbn. constructor.
  - rewrite in_app_iff. intros [H|[H|[]]]; [contradiction|subst; apply N; left; reflexivity].
  - apply IH; [exact D2|]. intros H. apply N. right. exact H.
Qed.

Lemma voc_add_spec v s : vok v ->
  vok (voc_add v s) /\ (In s (v_words v) /\ v_words (voc_add v s) = v_words v \/ ~ In s (v_words v) /\ v_words (voc_add v s) = v_words v ++ [s]).
Proof.
  intros [D E]. unfold voc_add. destruct (amem str_eqb s (v_ids v)) eqn:M; rewrite E in M.
  - apply amem_indexed in M. split; [split; assumption|left; auto].
  - apply amem_indexed_false in M. split; [|right; auto]. split; cbn [v_words v_ids].
    + apply NoDup_snoc; assumption.
    + rewrite indexed_snoc, <- E. apply aset_absent. apply aget_none; [apply str_eqb_eq|]. rewrite E, indexed_keys. exact M.
Qed.

Lemma distinct_in l s : In s (distinct l) <-> In s l.
Proof.
  induction l as [|t l IH]; cbn [distinct In]; [tauto|]. rewrite filter_In, IH. split; [tauto|].
  intros [->|H]; [auto|]. destruct (str_eqb t s) eqn:E; [apply str_eqb_eq in E; auto|]. right. auto.
Qed.

Lemma distinct_nodup l : NoDup (distinct l).
Proof.
  induction l as [|t l IH]; cbn [distinct]; constructor.
  - rewrite filter_In. intros [_ H]. rewrite str_eqb_refl in H. discriminate.
  - apply NoDup_filter. exact IH.
Qed.

Lemma distinct_snoc l s : (In s l -> distinct (l ++ [s]) = distinct l) /\ (~ In s l -> distinct (l ++ [s]) = distinct l ++ [s]).
Proof.
  induction l as [|t l [IH1 IH2]]; cbn [distinct app In].
  - split; [tauto|]. intros _. reflexivity.
  - split.
    + intros H. f_equal. destruct (in_dec (list_eq_dec N.eq_dec) s l) as [I|I]; [rewrite IH1 by exact I; reflexivity|].
      destruct H as [->|H]; [|contradiction]. rewrite IH2 by exact I. rewrite filter_app. cbn [filter]. rewrite str_eqb_refl. cbn [negb]. apply app_nil_r.
    + intros H. rewrite IH2 by tauto. rewrite filter_app. cbn [filter]. destruct (str_eqb t s) eqn:E; [apply str_eqb_eq in E; tauto|]. reflexivity.
Qed.

Lemma distinct_id l : NoDup l -> distinct l = l.
Proof.
  induction l as [|s l IH] using rev_ind; intros D; [reflexivity|].
  assert (D' := NoDup_remove l [] s D). rewrite app_nil_r in D'. destruct D' as [D1 D2]. rewrite (proj2 (distinct_snoc l s) D2), IH by exact D1. reflexivity.
Qed.

Lemma distinct_prefix l l' : exists rest, distinct (l ++ l') = distinct l ++ rest.
Proof.
  induction l' as [|s l' IH] using rev_ind; [exists []; rewrite !app_nil_r; reflexivity|].
  destruct IH as (rest & E). rewrite app_assoc. destruct (in_dec (list_eq_dec N.eq_dec) s (l ++ l')) as [I|I].
  - exists rest. rewrite (proj1 (distinct_snoc _ _) I). exact E.
  - exists (rest ++ [s]). rewrite (proj2 (distinct_snoc _ _) I), E, app_assoc. reflexivity.
Qed.

Lemma distinct_app_distinct l l' : distinct (distinct l ++ l') = distinct (l ++ l').
Proof.
  induction l' as [|s l' IH] using rev_ind; [rewrite !app_nil_r; apply distinct_id, distinct_nodup|].
  rewrite !app_assoc. destruct (in_dec (list_eq_dec N.eq_dec) s (l ++ l')) as [I|I].
  - rewrite (proj1 (distinct_snoc (l ++ l') s) I), (proj1 (distinct_snoc (distinct l ++ l') s)); [exact IH|]. rewrite in_app_iff, distinct_in in *. exact I.
  - rewrite (proj2 (distinct_snoc (l ++ l') s) I), (proj2 (distinct_snoc (distinct l ++ l') s)); [rewrite IH; reflexivity|]. rewrite in_app_iff, distinct_in in *. exact I.
Qed.

Lemma voc_adds l : forall v, vok v -> vok (fold_left voc_add l v) /\ v_words (fold_left voc_add l v) = distinct (v_words v ++ l).
Proof.
  induction l as [|s l IH]; intros v V; cbn [fold_left].
  - rewrite app_nil_r, distinct_id; [auto|apply V].
  - destruct (voc_add_spec v s V) as [V' H]. destruct (IH _ V') as [V2 E]. split; [exact V2|]. rewrite E.
    destruct H as [[I ->]|[I ->]]; [|rewrite <- app_assoc; reflexivity].
    change (s :: l) with ([s] ++ l). rewrite app_assoc, <- (distinct_app_distinct (v_words v ++ [s])), (proj1 (distinct_snoc _ _) I), distinct_app_distinct. reflexivity.
Qed.

Lemma vok_nil : vok (mkVoc [] []).
Proof. split; [constructor|reflexivity]. Qed.

Lemma vok_get v s i : vok v -> aget str_eqb s (v_ids v) = Some i <-> nth_error (v_words v) (N.to_nat i) = Some s.
Proof. intros [D E]. rewrite E. apply aget_indexed. exact D. Qed.

Lemma vok_mem v s : vok v -> amem str_eqb s (v_ids v) = true <-> In s (v_words v).
Proof. intros [D E]. rewrite E. apply amem_indexed. Qed.

Lemma vok_len v : vok v -> length (v_ids v) = length (v_words v).
Proof. intros [D E]. rewrite E. apply indexed_len. Qed.

(** ** The alphabet *)
Lemma bump_keys c n m x : In x (map fst (bump c n m)) <-> x = c \/ In x (map fst m).
Proof. unfold bump. apply aset_keys_in. apply N.eqb_eq. Qed.

Lemma bump_nodup c n m : NoDup (map fst m) -> NoDup (map fst (bump c n m)).
Proof. unfold bump. apply aset_nodup. apply N.eqb_eq. Qed.

Definition weight (m : list (char * N)) (c : char) : N := match aget N.eqb c m with Some k => k | None => 0%N end.
Lemma bump_weight c n m x : weight (bump c n m) x = (weight m x + if N.eqb x c then n else 0)%N.
Proof. unfold weight, bump. rewrite (aget_aset _ N.eqb_eq). destruct (N.eqb_spec x c) as [->|H]; [reflexivity|]. rewrite N.add_0_r. reflexivity. Qed.

Lemma bumps_spec (n : N) s : forall m, NoDup (map fst m) ->
  let m' := fold_left (fun m c => bump c n m) s m in
  NoDup (map fst m') /\ (forall x, In x (map fst m') <-> In x s \/ In x (map fst m)) /\
  (forall x, weight m' x = weight m x + n * N.of_nat (count_occ N.eq_dec s x))%N.
Proof.
  induction s as [|c s IH]; intros m D; cbn zeta; cbn [fold_left]; [split; [exact D|]; split; [cbn; tauto|]; intros x; cbn; lia|].
  destruct (IH (bump c n m) (bump_nodup c n m D)) as (H1 & H2 & H3). split; [exact H1|]. split.
  - intros x. rewrite H2, bump_keys. cbn [In]. intuition (subst; auto).
  - intros x. rewrite H3, bump_weight. cbn [count_occ]. destruct (N.eq_dec c x) as [Hn|Hn]; destruct (N.eqb_spec x c); try congruence; lia.
Qed.

Lemma char_counts_spec wc :
  NoDup (map fst (char_counts wc)) /\ (forall x, In x (map fst (char_counts wc)) <-> exists w n, In (w, n) wc /\ In x w) /\
  (forall x, weight (char_counts wc) x = char_frequency x wc).
Proof.
  unfold char_counts. assert (G : forall wc m, NoDup (map fst m) ->
    let m' := fold_left (fun m wn => fold_left (fun m c => bump c (snd wn) m) (fst wn) m) wc m in
    NoDup (map fst m') /\ (forall x, In x (map fst m') <-> (exists w n, In (w, n) wc /\ In x w) \/ In x (map fst m)) /\
    (forall x, weight m' x = weight m x + char_frequency x wc)%N).
  { clear wc. induction wc as [|[w n] wc IH]; intros m D; cbn zeta; cbn [fold_left fst snd].
    - split; [exact D|]. split; [|intros x; cbn; lia]. intros x. split; [auto|]. intros [(w & n & [] & _)|H]; exact H.
    - destruct (bumps_spec n w m D) as (A1 & A2 & A3). destruct (IH _ A1) as (B1 & B2 & B3). split; [exact B1|]. split.
      + intros x. rewrite B2, A2. split.
        * intros [(w' & n' & H1 & H2)|[H|H]]; [left; exists w', n'; split; [right; exact H1|exact H2]|left; exists w, n; split; [left; reflexivity|exact H]|right; exact H].
        * intros [(w' & n' & [H1|H1] & H2)|H]; [injection H1 as <- <-; auto|left; eauto|auto].
      + intros x. rewrite B3, A3. cbn [char_frequency fold_right fst snd]. fold (char_frequency x wc). lia. }
  destruct (G wc [] (NoDup_nil _)) as (G1 & G2 & G3). split; [exact G1|]. split.
  - intros x. rewrite G2. cbn. tauto.
  - intros x. rewrite G3. unfold weight. cbn. lia.
Qed.

Lemma alphabet_spec tr wc :
  NoDup (map fst (alphabet tr wc)) /\
  (forall x, In x (map fst (alphabet tr wc)) <-> In x (tr_initial tr) \/ exists w n, In (w, n) wc /\ In x w) /\
  (forall x, weight (alphabet tr wc) x = char_weight tr wc x).
Proof.
  unfold alphabet, char_weight. destruct (char_counts_spec wc) as (C1 & C2 & C3).
  assert (G : forall l m, NoDup (map fst m) ->
    let m' := fold_left (fun m c => aset N.eqb c usize_max m) l m in
    NoDup (map fst m') /\ (forall x, In x (map fst m') <-> In x l \/ In x (map fst m)) /\
    (forall x, weight m' x = if existsb (N.eqb x) l then usize_max else weight m x)).
  { induction l as [|c l IH]; intros m D; cbn zeta; cbn [fold_left]; [split; [exact D|]; split; [cbn; tauto|]; reflexivity|].
    destruct (IH (aset N.eqb c usize_max m) (aset_nodup _ N.eqb_eq _ _ _ D)) as (H1 & H2 & H3). split; [exact H1|]. split.
    - intros x. rewrite H2, (aset_keys_in _ N.eqb_eq). cbn [In]. intuition (subst; auto).
    - intros x. rewrite H3. unfold weight. rewrite (aget_aset _ N.eqb_eq). cbn [existsb]. destruct (N.eqb x c); cbn [orb]; [|reflexivity].
      destruct (existsb (N.eqb x) l); reflexivity. }
  destruct (G (tr_initial tr) _ C1) as (G1 & G2 & G3). split; [exact G1|]. split.
  - intros x. rewrite G2, C2. reflexivity.
  - intros x. rewrite G3, C3. reflexivity.
Qed.

Lemma insert_char_perm c l : Permutation (c :: l) (insert_char c l).
Proof.
  induction l as [|d l IH]; cbn [insert_char]; [reflexivity|]. destruct (N.leb c d); [reflexivity|].
  transitivity (d :: c :: l); [apply perm_swap|]. constructor. exact IH.
Qed.
Lemma sort_chars_perm l : Permutation l (sort_chars l).
Proof. induction l as [|c l IH]; cbn; [reflexivity|]. transitivity (c :: sort_chars l); [constructor; exact IH|apply insert_char_perm]. Qed.
Lemma insert_char_sorted c l : StronglySorted N.le l -> StronglySorted N.le (insert_char c l).
Proof.
  induction l as [|d l IH]; intros S1; cbn [insert_char]; [repeat constructor|]. inversion S1 as [|? ? S2 F]; subst. destruct (N.leb_spec c d) as [L|L].
  - constructor; [exact S1|]. constructor; [exact L|]. eapply Forall_impl; [|exact F]. cbn. intros a H. lia.
  - constructor; [apply IH; exact S2|]. eapply Permutation_Forall; [apply insert_char_perm|]. constructor; [lia|exact F].
Qed.
Lemma sort_chars_sorted l : NoDup l -> StronglySorted N.lt (sort_chars l).
Proof.
  intros D. assert (S1 : StronglySorted N.le (sort_chars l)).
  { clear D. induction l as [|c l IH]; cbn; [constructor|]. apply insert_char_sorted. exact IH. }
  assert (D' : NoDup (sort_chars l)) by (eapply Permutation_NoDup; [apply sort_chars_perm|exact D]).
  induction S1 as [|a l' S1 IH F]; [constructor|]. inversion D' as [|? ? D1 D2]; subst. constructor; [apply IH; exact D2|].
  rewrite Forall_forall in *. intros x Hx. specialize (F x Hx). assert (a <> x) by (intros ->; contradiction). lia.
Qed.

Lemma sorted_skip {A} (R : A -> A -> Prop) l k : StronglySorted R l -> forall a b, In a (firstn k l) -> In b (skipn k l) -> R a b.
Proof.
  revert k. induction l as [|x l IH]; intros k S1 a b Ha Hb; [destruct k; destruct Hb|]. inversion S1 as [|? ? S2 F]; subst.
  destruct k as [|k]; [destruct Ha|]. cbn [firstn skipn] in *. destruct Ha as [<-|Ha]; [|eapply IH; eauto].
  rewrite Forall_forall in F. apply F. rewrite <- (firstn_skipn k l). apply in_or_app. right. exact Hb.
Qed.

Lemma in_keys_get c (m : list (char * N)) n : NoDup (map fst m) -> In (c, n) m -> weight m c = n.
Proof. intros D H. unfold weight. rewrite (In_aget _ N.eqb_eq c n m D H). reflexivity. Qed.

Lemma kept_chars_spec by_count tr wc : count_sort by_count -> kept_alphabet tr wc (kept_chars by_count tr wc).
Proof.
  intros BC. destruct (alphabet_spec tr wc) as (A1 & A2 & A3). unfold kept_chars. set (al := alphabet tr wc) in *.
  set (k := match tr_limit tr with Some l => length al - l | None => 0 end).
  destruct (BC al) as [P S1]. set (kept := if 0 <? k then skipn k (by_count al) else al).
  assert (PK : exists cut, Permutation (map fst al) (cut ++ map fst kept)).
  { unfold kept. destruct (0 <? k).
    - exists (map fst (firstn k (by_count al))). rewrite <- map_app, firstn_skipn. apply Permutation_map. exact P.
    - exists []. reflexivity. }
  destruct PK as (cut & PK).
  assert (DK : NoDup (map fst kept)).
  { assert (D := Permutation_NoDup PK A1). clear - D. induction cut as [|x cut IH]; [exact D|]. inversion D; auto. }
  assert (IK : forall c, In c (sort_chars (map fst kept)) <-> In c (map fst kept)).
  { intros c. split; apply Permutation_in; [symmetry|]; apply sort_chars_perm. }
  unfold kept_alphabet. cbn zeta. split; [apply sort_chars_sorted; exact DK|]. split.
  - intros c H. rewrite IK in H. apply A2. eapply Permutation_in; [symmetry; exact PK|]. apply in_or_app. right. exact H.
  - assert (LS : length (sort_chars (map fst kept)) = length kept).
    { rewrite <- (Permutation_length (sort_chars_perm (map fst kept))), map_length. reflexivity. }
    destruct (tr_limit tr) as [l|] eqn:EL.
    + assert (LA : length (by_count al) = length al) by (symmetry; apply Permutation_length, P).
      rewrite LS. assert (KL : k = length al - l) by reflexivity. clearbody k. assert (KE : 0 < k /\ kept = skipn k (by_count al) \/ k = 0 /\ kept = al).
      { unfold kept. destruct (Nat.ltb_spec 0 k); [left|right]; split; auto; lia. }
      clearbody kept.
      destruct KE as [[L KE]|[L KE]]; rewrite KE.
      * rewrite skipn_length, LA. split; [lia|]. intros c Hc Hn. split; [lia|]. intros d Hd. rewrite <- KE, IK, KE in Hd. rewrite <- KE, IK, KE in Hn.
        apply A2 in Hc.
        apply in_map_iff in Hc. destruct Hc as ([c0 nc] & Ec & Hc). cbn in Ec. subst c0.
        apply in_map_iff in Hd. destruct Hd as ([d0 nd] & Ed & Hd). cbn in Ed. subst d0.
        assert (Hd' : In (d, nd) al). { eapply Permutation_in; [symmetry; exact P|]. rewrite <- (firstn_skipn k (by_count al)). apply in_or_app. right. exact Hd. }
        assert (Hc' : In (c, nc) (firstn k (by_count al))).
        { pose proof (Permutation_in _ P Hc) as Hc'. rewrite <- (firstn_skipn k (by_count al)) in Hc'. apply in_app_or in Hc'. destruct Hc' as [Hc'|Hc']; [exact Hc'|].
          exfalso. apply Hn. apply in_map_iff. exists (c, nc). auto. }
        pose proof (sorted_skip _ _ _ S1 _ _ Hc' Hd) as R. cbn [snd] in R. rewrite <- !A3, (in_keys_get c al nc A1 Hc), (in_keys_get d al nd A1 Hd'). exact R.
      * split; [lia|]. intros c Hc Hn. exfalso. apply Hn. rewrite <- KE, IK, KE. apply A2. exact Hc.
    + intros c Hc. rewrite IK. unfold kept, k. cbn. apply A2. exact Hc.
Qed.

(** ** First segmentations *)
Lemma placed_affixed tr first last c : placed tr first last c = affixed (tr_prefix tr) (tr_suffix tr) first last c.
Proof.
  unfold placed, affixed. destruct first, last; try destruct (tr_prefix tr); try destruct (tr_suffix tr); cbn; rewrite ?app_nil_r, <- ?app_assoc; reflexivity.
Qed.

Lemma affixed_single pre suf first last c d : affixed pre suf first last c = [d] -> c = d.
Proof.
  unfold affixed. intros H. set (a := if first then [] else match pre with Some p => p | None => [] end) in *.
  destruct a as [|x a]; cbn in H; [congruence|]. injection H as -> H. destruct a; discriminate.
Qed.

Lemma spelled_grow tr toks toks' : (forall i s, nth_error toks i = Some s -> nth_error toks' i = Some s) ->
  (forall c, In [c] toks' -> In [c] toks) -> forall first s w, spelled tr toks first s w -> spelled tr toks' first s w.
Proof.
  intros G1 G2 first s w H. induction H as [first|first c s i w H1 H2 H IH|first c s w H1 H IH]; [constructor| |].
  - constructor; [|apply G1; exact H2|exact IH]. apply In_nth_error in H1. destruct H1 as (k & H1). eapply nth_error_In. apply G1. exact H1.
  - constructor; [|exact IH]. intros H2. apply H1, G2, H2.
Qed.

Definition grown (tr : trainer) (s : str) (first : bool) (v v' : voc) (extra : list str) : Prop :=
  vok v' /\ v_words v' = distinct (v_words v ++ extra) /\
  forall t, In t extra -> exists p c q, s = p ++ c :: q /\ In [c] (v_words v) /\
    t = affixed (tr_prefix tr) (tr_suffix tr) (first && is_nil p) (is_nil q) c.

Lemma distinct_grows ws extra i s : NoDup ws -> nth_error ws i = Some s -> nth_error (distinct (ws ++ extra)) i = Some s.
Proof.
  intros D H. destruct (distinct_prefix ws extra) as (rest & E). rewrite E, (distinct_id ws D), nth_error_app1; [exact H|]. apply nth_error_Some. congruence.
Qed.

Lemma grown_singles tr s first v v' extra : grown tr s first v v' extra -> forall c, In [c] (v_words v') <-> In [c] (v_words v).
Proof.
  intros (V & E & X) c. rewrite E, distinct_in, in_app_iff. split; [|auto]. intros [H|H]; [exact H|].
  destruct (X _ H) as (p & d & q & _ & K & A). symmetry in A. apply affixed_single in A. subst d. exact K.
Qed.

Lemma grown_nth tr s first v v' extra i t : vok v -> grown tr s first v v' extra ->
  nth_error (v_words v) i = Some t -> nth_error (v_words v') i = Some t.
Proof. intros V (V' & E & _) H. rewrite E. apply distinct_grows; [apply V|exact H]. Qed.

Lemma tokenize_word_spec tr s : forall first v, vok v ->
  exists w v' extra, tokenize_word tr first s v = Ok (w, v') /\ grown tr s first v v' extra /\ spelled tr (v_words v') first s w.
Proof.
  induction s as [|c s IH]; intros first v V; cbn [tokenize_word].
  - exists [], v, []. split; [reflexivity|]. split; [|constructor]. split; [exact V|]. split; [rewrite app_nil_r, distinct_id by apply V; reflexivity|intros t []].
  - destruct (amem str_eqb [c] (v_ids v)) eqn:M.
    + apply (vok_mem v _ V) in M. set (t := placed tr first (is_nil s) c). destruct (voc_add_spec v t V) as [V1 A].
      assert (IT : In t (v_words (voc_add v t))) by (destruct A as [[A1 A2]|[A1 A2]]; rewrite A2; [exact A1|apply in_or_app; right; left; reflexivity]).
      destruct (aget str_eqb t (v_ids (voc_add v t))) as [i|] eqn:EI.
      2: { exfalso. apply (vok_mem _ _ V1) in IT. unfold amem in IT. rewrite EI in IT. discriminate. }
      cbn [of_option bind]. apply (vok_get _ _ _ V1) in EI.
      destruct (IH false _ V1) as (w & v2 & extra & E2 & G2 & S2). rewrite E2. cbn [bind].
      assert (W1 : v_words (voc_add v t) = distinct (v_words v ++ [t])).
      { destruct A as [[A1 A2]|[A1 A2]]; rewrite A2; [rewrite (proj1 (distinct_snoc _ _) A1)|rewrite (proj2 (distinct_snoc _ _) A1)]; rewrite distinct_id by apply V; reflexivity. }
      assert (G : grown tr (c :: s) first v v2 (t :: extra)).
      { destruct G2 as (V2 & W2 & X2). split; [exact V2|]. split.
        - rewrite W2, W1, distinct_app_distinct, <- app_assoc. reflexivity.
        - intros u [<-|Hu].
          + exists [], c, s. split; [reflexivity|]. split; [exact M|]. rewrite andb_true_r. apply placed_affixed.
          + destruct (X2 u Hu) as (p & d & q & E & K & F). exists (c :: p), d, q. split; [cbn; rewrite E; reflexivity|]. split; [|cbn [is_nil]; rewrite andb_false_r; exact F].
            rewrite W1, distinct_in, in_app_iff in K. destruct K as [K|[K|[]]]; [exact K|]. unfold t in K. rewrite placed_affixed in K. apply affixed_single in K. subst d. exact M. }
      exists ((i, 1) :: w), v2, (t :: extra). split; [reflexivity|]. split; [exact G|].
      constructor; [apply (grown_singles _ _ _ _ _ _ G); exact M| |exact S2].
      eapply grown_nth in EI; [|exact V1|exact G2]. rewrite EI. unfold t. rewrite placed_affixed. reflexivity.
    + assert (N : ~ In [c] (v_words v)) by (rewrite <- (vok_mem v _ V); congruence).
      destruct (IH false v V) as (w & v2 & extra & E2 & G2 & S2). exists w, v2, extra. split; [exact E2|].
      assert (G : grown tr (c :: s) first v v2 extra).
      { destruct G2 as (V2 & W2 & X2). split; [exact V2|]. split; [exact W2|]. intros u Hu. destruct (X2 u Hu) as (p & d & q & E & K & F).
        exists (c :: p), d, q. split; [cbn; rewrite E; reflexivity|]. split; [exact K|]. cbn [is_nil]. rewrite andb_false_r. exact F. }
      split; [exact G|]. constructor; [|exact S2]. intros H. apply N. apply (grown_singles _ _ _ _ _ _ G). exact H.
Qed.

Lemma tokenize_words_spec tr (wc : list (str * N)) : forall v, vok v ->
  exists ws v' extra, tokenize_words tr (map fst wc) v = Ok (ws, v') /\ vok v' /\ v_words v' = distinct (v_words v ++ extra) /\
    (forall t, In t extra -> exists w n p c q, In (w, n) wc /\ w = p ++ c :: q /\ In [c] (v_words v) /\
       t = affixed (tr_prefix tr) (tr_suffix tr) (is_nil p) (is_nil q) c) /\
    (forall c, In [c] (v_words v') <-> In [c] (v_words v)) /\
    Forall2 (fun wn w => spelled tr (v_words v') true (fst wn) w) wc ws.
Proof.
  induction wc as [|[s n] wc IH]; intros v V; cbn [map fst tokenize_words].
  - exists [], v, []. split; [reflexivity|]. split; [exact V|]. split; [rewrite app_nil_r, distinct_id by apply V; reflexivity|]. split; [intros t []|]. split; [tauto|constructor].
  - destruct (tokenize_word_spec tr s true v V) as (w & v1 & x1 & E1 & G1 & S1). rewrite E1. cbn [bind].
    destruct (IH v1 (proj1 G1)) as (ws & v2 & x2 & E2 & V2 & W2 & X2 & K2 & F2). rewrite E2. cbn [bind].
    exists (w :: ws), v2, (x1 ++ x2). split; [reflexivity|]. split; [exact V2|].
    pose proof (grown_singles _ _ _ _ _ _ G1) as K1. pose proof (proj1 G1) as V1. destruct G1 as (_ & W1 & X1).
    split; [rewrite W2, W1, distinct_app_distinct, app_assoc; reflexivity|]. split; [|split].
    + intros t Ht. apply in_app_or in Ht. destruct Ht as [Ht|Ht].
      * destruct (X1 t Ht) as (p & c & q & E & K & F). exists s, n, p, c, q. cbn [andb] in F. split; [left; reflexivity|auto].
      * destruct (X2 t Ht) as (w' & n' & p & c & q & I & E & K & F). exists w', n', p, c, q. split; [right; exact I|]. split; [exact E|]. split; [apply K1; exact K|exact F].
    + intros c. rewrite K2, K1. reflexivity.
    + constructor; [|exact F2]. cbn [fst]. eapply spelled_grow; [| |exact S1].
      * intros i t H. rewrite W2. apply distinct_grows; [apply V1|exact H].
      * intros c H. apply K2. exact H.
Qed.
