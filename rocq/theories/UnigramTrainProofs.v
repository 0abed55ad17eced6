(** Seeds and pruning of Unigram training. *)
From Coq Require Import Permutation Sorted.
From Verif Require Import Base StrBytes ListFacts AMap Utf8 EncodingModel BpeModel UnigramModel MarginalModel TrainersModel UnigramTrainModel UnigramTrainSpec.

(** *** Sorting *)
Lemma insert_by_perm {X} (before : X -> X -> bool) x l : Permutation (insert_by before x l) (x :: l).
Proof.
  induction l as [|y l IH]; cbn [insert_by]; [reflexivity|]. destruct (before y x); [|reflexivity]. rewrite IH. apply perm_swap.
Qed.
Lemma sort_by_perm {X} (before : X -> X -> bool) l : Permutation (sort_by before l) l.
Proof. induction l as [|x l IH]; cbn; [constructor|]. rewrite insert_by_perm. constructor. exact IH. Qed.

Section sorting.
  Context {X : Type} (before : X -> X -> bool) (ok : X -> Prop).
  Context (Hasym : forall a b, ok a -> ok b -> before a b = true -> before b a = false).
  Context (Hneg : forall a b c, ok a -> ok b -> ok c -> before b a = false -> before c b = false -> before c a = false).
  Notation le := (fun a b => before b a = false).
  Lemma insert_by_sorted x l : ok x -> Forall ok l -> StronglySorted le l -> StronglySorted le (insert_by before x l).
  Proof.
    intros Ox Ol S. induction S as [|y l S IH F]; cbn [insert_by]; [repeat constructor|]. inversion Ol as [|? ? Oy Ol']; subst. destruct (before y x) eqn:E.
    - constructor; [apply IH; exact Ol'|]. apply (Permutation_Forall (Permutation_sym (insert_by_perm before x l))). constructor; [apply Hasym; assumption|exact F].
    - constructor; [constructor; assumption|]. constructor; [exact E|]. rewrite Forall_forall in *. intros z Hz. apply (Hneg x y z); auto.
  Qed.
  Lemma sort_by_sorted l : Forall ok l -> StronglySorted le (sort_by before l).
  Proof.
    intros O. induction l as [|x l IH]; cbn; [constructor|]. inversion O; subst. apply insert_by_sorted; [assumption| |apply IH; assumption].
    apply (Permutation_Forall (Permutation_sym (sort_by_perm before l))). assumption.
  Qed.
End sorting.

(** *** Seeds *)
Lemma str_ltb_irrefl a : str_ltb a a = false.
Proof. induction a as [|x a IH]; cbn; [reflexivity|]. rewrite N.ltb_irrefl, N.eqb_refl, IH. reflexivity. Qed.
Lemma str_ltb_asym a b : str_ltb a b = true -> str_ltb b a = false.
Proof.
  revert b. induction a as [|x a IH]; intros [|y b]; cbn; try easy. intros H. apply orb_true_iff in H. destruct H as [H|H].
  - apply N.ltb_lt in H. apply orb_false_iff. split; [apply N.ltb_ge; lia|]. replace (N.eqb y x) with false by (symmetry; apply N.eqb_neq; lia). reflexivity.
  - apply andb_true_iff in H. destruct H as [H1 H2]. apply N.eqb_eq in H1. subst y. rewrite N.ltb_irrefl, N.eqb_refl. cbn. apply IH. exact H2.
Qed.
Lemma str_ltb_neg a b c : str_ltb b a = false -> str_ltb c b = false -> str_ltb c a = false.
Proof.
  revert b c. induction a as [|x a IH]; intros [|y b] [|z c]; cbn; try easy. intros H1 H2. apply orb_false_iff in H1, H2. destruct H1 as [A1 A2], H2 as [B1 B2]. apply N.ltb_ge in A1, B1.
  apply orb_false_iff. split; [apply N.ltb_ge; lia|]. apply andb_false_iff. destruct (N.eqb_spec z x) as [->|]; [right|left; reflexivity].
  assert (x = y) by lia. subst y. rewrite N.eqb_refl in A2, B2. cbn in A2, B2. eapply IH; eauto.
Qed.
Lemma piece_before_asym a b : piece_before a b = true -> piece_before b a = false.
Proof.
  unfold piece_before. intros H. apply orb_true_iff in H. destruct H as [H|H].
  - apply N.ltb_lt in H. apply orb_false_iff. split; [apply N.ltb_ge; lia|]. replace (N.eqb (fst b) (fst a)) with false by (symmetry; apply N.eqb_neq; lia). reflexivity.
  - apply andb_true_iff in H. destruct H as [H1 H2]. apply N.eqb_eq in H1. rewrite H1, N.ltb_irrefl, N.eqb_refl. cbn. apply str_ltb_asym. exact H2.
Qed.
Lemma piece_before_neg a b c : piece_before b a = false -> piece_before c b = false -> piece_before c a = false.
Proof.
  unfold piece_before. intros H1 H2. apply orb_false_iff in H1, H2. destruct H1 as [A1 A2], H2 as [B1 B2]. apply N.ltb_ge in A1, B1. apply orb_false_iff. split; [apply N.ltb_ge; lia|].
  apply andb_false_iff. destruct (N.eqb_spec (fst c) (fst a)) as [E|]; [right|left; reflexivity]. assert (E1 : fst b = fst a) by lia. assert (E2 : fst c = fst b) by lia.
  rewrite E1, N.eqb_refl in A2. rewrite E2, N.eqb_refl in B2. cbn in A2, B2. eapply str_ltb_neg; [exact B2|exact A2].
Qed.

Lemma count_char_get n acc c d : aget N.eqb d (count_char n acc c) =
  if N.eqb c 0 then aget N.eqb d acc else if N.eqb d c then Some (match aget N.eqb c acc with Some k => k + n | None => n end)%N else aget N.eqb d acc.
Proof. unfold count_char. destruct (N.eqb c 0); [reflexivity|]. rewrite (aget_aset N.eqb N.eqb_eq). destruct (N.eqb d c) eqn:E; reflexivity. Qed.

(** Counts of characters: nothing for NUL. *)
Definition cell (acc : list (char * N)) (d : char) : N := match aget N.eqb d acc with Some k => k | None => 0%N end.
Lemma count_word_get n s : forall acc d, d <> 0%N ->
  cell (fold_left (count_char n) s acc) d = (cell acc d + n * N.of_nat (count_occ N.eq_dec s d))%N /\
  (aget N.eqb d (fold_left (count_char n) s acc) <> None <-> aget N.eqb d acc <> None \/ In d s).
Proof.
  induction s as [|c s IH]; intros acc d D; cbn [fold_left].
  - cbn [count_occ In]. split; [lia|tauto].
  - destruct (IH (count_char n acc c) d D) as [V P]. rewrite V, P. clear V P IH. unfold cell. rewrite count_char_get. cbn [count_occ In]. destruct (N.eqb_spec c 0) as [->|NC].
    + destruct (N.eq_dec 0 d) as [E|E]; [congruence|]. split; [lia|]. split; [tauto|]. intros [H|[H|H]]; solve [auto|congruence].
    + destruct (N.eqb_spec d c) as [->|ND].
      * destruct (N.eq_dec c c) as [_|E]; [|congruence]. split; [destruct (aget N.eqb c acc); lia|]. split; [auto|]. intros _. left. discriminate.
      * destruct (N.eq_dec c d) as [E|E]; [congruence|]. split; [lia|]. split; [tauto|]. intros [H|[H|H]]; solve [auto|congruence].
Qed.
Lemma all_chars_get wc : forall acc d, d <> 0%N ->
  let r := fold_left (fun acc e => fold_left (count_char (snd e)) (fst e) acc) wc acc in
  cell r d = (cell acc d + char_total wc d)%N /\ (aget N.eqb d r <> None <-> aget N.eqb d acc <> None \/ exists w n, In (w, n) wc /\ In d w).
Proof.
  induction wc as [|[w n] wc IH]; intros acc d D; cbn zeta.
  - cbn [fold_left char_total fold_right]. split; [lia|]. split; [auto|]. intros [H|(? & ? & [] & _)]; exact H.
  - cbn [fold_left]. destruct (IH (fold_left (count_char (snd (w, n))) (fst (w, n)) acc) d D) as [V P]. cbn [fst snd] in *. destruct (count_word_get n w acc d D) as [V2 P2]. rewrite V, P, V2, P2. split.
    + cbn [char_total fold_right fst snd]. fold (char_total wc d). lia.
    + split.
      * intros [[H|H]|(w' & n' & Hin & H)]; [auto|right; exists w, n; cbn; auto|right; exists w', n'; cbn; auto].
      * intros [H|(w' & n' & [E|Hin] & H)]; [auto|injection E as <- <-; auto|right; eauto].
Qed.
Lemma all_chars_zero wc : forall acc, aget N.eqb 0%N acc = None -> aget N.eqb 0%N (fold_left (fun acc e => fold_left (count_char (snd e)) (fst e) acc) wc acc) = None.
Proof.
  induction wc as [|[w n] wc IH]; intros acc H; cbn [fold_left]; [exact H|]. apply IH. cbn [fst snd]. revert acc H. induction w as [|c w IHw]; intros acc H; cbn [fold_left]; [exact H|]. apply IHw.
  rewrite count_char_get. destruct (N.eqb_spec c 0) as [->|NC]; [exact H|]. destruct (N.eqb_spec 0 c); [congruence|exact H].
Qed.
Lemma all_chars_keys wc : forall acc, NoDup (map fst acc) -> NoDup (map fst (fold_left (fun acc e => fold_left (count_char (snd e)) (fst e) acc) wc acc)).
Proof.
  induction wc as [|[w n] wc IH]; intros acc H; cbn [fold_left]; [exact H|]. apply IH. cbn [fst snd]. revert acc H. induction w as [|c w IHw]; intros acc H; cbn [fold_left]; [exact H|]. apply IHw.
  unfold count_char. destruct (N.eqb c 0); [exact H|]. apply (aset_nodup N.eqb N.eqb_eq). exact H.
Qed.

Section seeds.
  Context {W : Type} (A : arith W) (T : tarith W) (suffix : str -> list (str * N)) (max_piece seed_size : nat).

  Lemma all_chars_in wc c k : In (c, k) (all_chars wc) <-> c <> 0%N /\ k = char_total wc c /\ exists w n, In (w, n) wc /\ In c w.
  Proof.
    pose proof (all_chars_keys wc [] ltac:(constructor)) as ND. pose proof (all_chars_zero wc [] eq_refl) as Z. fold (all_chars wc) in ND, Z. split.
    - intros H. apply (In_aget N.eqb N.eqb_eq) in H; [|exact ND]. assert (C : c <> 0%N) by congruence. destruct (all_chars_get wc [] c C) as [V P]. fold (all_chars wc) in V, P. split; [exact C|]. split.
      + unfold cell in V. rewrite H in V. cbn in V. exact V.
      + destruct (proj1 P) as [X|X]; [congruence|cbn in X; congruence|exact X].
    - intros (C & -> & H). destruct (all_chars_get wc [] c C) as [V P]. fold (all_chars wc) in V, P. destruct (aget N.eqb c (all_chars wc)) as [k|] eqn:E; [|exfalso; apply (proj2 P); auto].
      apply (aget_In N.eqb N.eqb_eq). rewrite E. unfold cell in V. rewrite E in V. cbn in V. congruence.
  Qed.

  (** A part of the joined text without NUL is a part of a word. *)
  Lemma flat_inside wc : forall s, s <> [] -> ~ In 0%N s -> inside s (flat_string wc) -> exists w n, In (w, n) wc /\ inside s w.
  Proof.
    induction wc as [|[w n] wc IH]; intros s NE NZ (a & b & E).
    - destruct a; [destruct s; [congruence|discriminate]|discriminate].
    - cbn [flat_string flat_map fst] in E. fold (flat_string wc) in E. destruct (is_nil w) eqn:EW.
      + destruct (IH s NE NZ) as (w' & n' & Hin & H); [exists a, b; exact E|]. exists w', n'. split; [right; exact Hin|exact H].
      + rewrite <- app_assoc in E. cbn [app] in E.
        assert (CASES : forall w0, w0 ++ 0%N :: flat_string wc = a ++ s ++ b -> (exists x, w0 = a ++ s ++ x) \/ exists a', flat_string wc = a' ++ s ++ b).
        { clear E EW w. induction a as [|y a IHa]; intros w0 E.
          - cbn [app] in *. left. clear IH. assert (NE' := NE). clear NE. revert s NZ E NE'. induction w0 as [|z w0 IHw]; intros s NZ E NE.
            + destruct s as [|c s]; [congruence|]. cbn in E. injection E as <- _. exfalso. apply NZ. left. reflexivity.
            + destruct s as [|c s]; [congruence|]. cbn in E. injection E as <- E. destruct s as [|c s]; [exists w0; reflexivity|].
              destruct (IHw (c :: s)) as (x & ->); [intros H; apply NZ; right; exact H|exact E|discriminate|]. exists x. reflexivity.
          - destruct w0 as [|z w0].
            + cbn in E. injection E as _ E. right. exists a. exact E.
            + cbn in E. injection E as <- E. destruct (IHa _ E) as [(x & ->)|H]; [left; exists x; reflexivity|right; exact H]. }
        destruct (CASES w E) as [(x & ->)|(a' & E')].
        * eexists _, n. split; [left; reflexivity|]. exists a, x. reflexivity.
        * destruct (IH s NE NZ) as (w' & n' & Hin & H); [exists a', b; exact E'|]. exists w', n'. split; [right; exact Hin|exact H].
  Qed.

  (** The texts that may become seeds. *)
  Lemma substr_index_in wc score s : In (score, s) (substr_index suffix max_piece wc) <->
    exists n, In (s, n) (suffix (flat_string wc)) /\ 2 <= length s <= max_piece /\ ~ In 0%N s /\ score = (n * N.of_nat (length s))%N.
  Proof.
    unfold substr_index. rewrite in_flat_map. split.
    - intros ([s' n] & Hin & H). cbn [fst snd] in H. destruct (Nat.leb_spec (length s') 1) as [|L1]; [destruct H|]. destruct (existsb (N.eqb 0) s') eqn:EX; [destruct H|]. destruct (valid_piece max_piece s') eqn:EV; [|destruct H].
      cbn in H. destruct H as [H|[]]. injection H as <- <-. exists n. split; [exact Hin|]. unfold valid_piece in EV. apply andb_true_iff in EV. destruct EV as [_ EV]. apply Nat.leb_le in EV.
      split; [lia|]. split; [|reflexivity]. intros H. assert (existsb (N.eqb 0) s' = true) by (apply existsb_exists; exists 0%N; auto). congruence.
    - intros (n & Hin & L & NZ & ->). exists (s, n). split; [exact Hin|]. cbn [fst snd]. destruct (Nat.leb_spec (length s) 1); [lia|]. replace (existsb (N.eqb 0) s) with false.
      + unfold valid_piece. replace (length s <=? max_piece) with true by (symmetry; apply Nat.leb_le; lia). replace (is_nil s) with false by (destruct s; [cbn in L; lia|reflexivity]). left. reflexivity.
      + symmetry. destruct (existsb (N.eqb 0) s) eqn:EX; [|reflexivity]. apply existsb_exists in EX. destruct EX as (x & Hx & Ex). apply N.eqb_eq in Ex. subst x. contradiction.
  Qed.
  Lemma substr_index_once wc : lists_once suffix -> NoDup (map snd (substr_index suffix max_piece wc)).
  Proof.
    intros H. specialize (H (flat_string wc)). unfold substr_index. induction (suffix (flat_string wc)) as [|[s n] l IH]; [constructor|]. cbn [map fst] in H. inversion H as [|? ? NI ND]; subst.
    cbn [flat_map fst snd]. rewrite map_app. assert (K : NoDup (map snd (flat_map (fun e => if length (fst e) <=? 1 then [] else if existsb (N.eqb 0) (fst e) then [] else if negb (valid_piece max_piece (fst e)) then [] else [((snd e * N.of_nat (length (fst e)))%N, fst e)]) l))) by (apply IH; exact ND).
    assert (NI' : ~ In s (map snd (flat_map (fun e => if length (fst e) <=? 1 then [] else if existsb (N.eqb 0) (fst e) then [] else if negb (valid_piece max_piece (fst e)) then [] else [((snd e * N.of_nat (length (fst e)))%N, fst e)]) l))).
    { intros I. apply NI. apply in_map_iff in I. destruct I as ([k s'] & E & I). cbn in E. subst s'. apply in_flat_map in I. destruct I as ([s' n'] & I1 & I2). cbn [fst snd] in I2.
      destruct (length s' <=? 1); [destruct I2|]. destruct (existsb (N.eqb 0) s'); [destruct I2|]. destruct (negb (valid_piece max_piece s')); [destruct I2|]. destruct I2 as [I2|[]]. injection I2 as _ <-.
      apply in_map_iff. exists (s', n'). auto. }
    destruct (length s <=? 1); [exact K|]. destruct (existsb (N.eqb 0) s); [exact K|]. destruct (negb (valid_piece max_piece s)); [exact K|]. cbn. constructor; assumption.
  Qed.

  (** The loop takes the first texts until there are enough. *)
  Lemma take_seeds_spec l : forall acc, exists k, take_seeds T seed_size l acc = acc ++ map (fun e => (snd e, ta_of T (fst e))) (firstn k l) /\
    k <= length l /\ (k < length l -> seed_size <= length acc + k) /\ (1 < k -> length acc + k <= seed_size).
  Proof.
    induction l as [|[score s] l IH]; intros acc; cbn [take_seeds].
    - exists 0. cbn. rewrite app_nil_r. split; [reflexivity|]. lia.
    - destruct (Nat.leb_spec seed_size (length (acc ++ [(s, ta_of T score)]))) as [H|H]; rewrite app_length in H; cbn [length] in H.
      + exists 1. cbn [firstn map fst snd length]. split; [reflexivity|]. lia.
      + destruct (IH (acc ++ [(s, ta_of T score)])) as (k & E & L1 & L2 & L3). exists (S k). cbn [firstn map fst snd length]. split; [rewrite E, <- app_assoc; reflexivity|]. rewrite app_length in L2, L3. cbn [length] in L2, L3.
        split; [lia|]. split; [lia|]. destruct (Nat.le_gt_cases k 1); [|intros; lia]. intros. lia.
  Qed.
End seeds.
