(** Proofs about training: encoding repeats the segmentation, and the result is unique. *)
From Verif Require Import Base ListFacts StrBytes Utf8 AMap EncodingModel BpeWordModel BpeWordSpec BpeModel BpeSpec BpeProofs
  BpeTrainModel BpeTrainSpec BpeTrainProofs BpeTrainProofs2 BpeTrainProofs3 BpeTrainProofs4 BpeTrainProofs5 BpeTrainProofs6 BpeTrainProofs7 BpeTrainProofs8.
From Coq Require Import ZArith.

(** ** Merges in order are the canonical segmentation *)
Lemma windows_snoc l : forall (r : N) p, In p (windows (l ++ [r])) -> In p (windows l) \/ snd p = r.
Proof.
  induction l as [|a l IH]; intros r p H; [destruct H|]. destruct l as [|b l].
  - destruct H as [<-|[]]. right. reflexivity.
  - change ((a :: b :: l) ++ [r]) with (a :: b :: (l ++ [r])) in H. change (windows (a :: b :: l ++ [r])) with ((a, b) :: windows ((b :: l) ++ [r])) in H.
    destruct H as [<-|H]; [left; left; reflexivity|]. destruct (IH r p H) as [X|X]; [left; right; exact X|auto].
Qed.
Lemma windows_cons (r : N) l : forall p, In p (windows (r :: l)) -> fst p = r \/ In p (windows l).
Proof. intros p H. destruct l as [|b l]; [destruct H|]. destruct H as [<-|H]; [left; reflexivity|right; exact H]. Qed.
Lemma windows_split A x : forall B, windows (A ++ x :: B) = windows (A ++ [x]) ++ windows (x :: B).
Proof.
  induction A as [|a A IH]; intros B; [reflexivity|]. destruct A as [|b A]; [reflexivity|].
  change ((a :: b :: A) ++ x :: B) with (a :: b :: (A ++ x :: B)). change ((a :: b :: A) ++ [x]) with (a :: b :: (A ++ [x])).
  change (windows (a :: b :: A ++ x :: B)) with ((a, b) :: windows ((b :: A) ++ x :: B)). rewrite IH. reflexivity.
Qed.
Lemma windows_grow A x : forall p, In p (windows A) -> In p (windows (A ++ [x])).
Proof.
  intros p. induction A as [|a A IH]; intros H; [destruct H|]. destruct A as [|b A]; [destruct H|].
  change ((a :: b :: A) ++ [x]) with (a :: b :: (A ++ [x])). change (windows (a :: b :: A ++ [x])) with ((a, b) :: windows ((b :: A) ++ [x])).
  destruct H as [<-|H]; [left; reflexivity|right; apply IH; exact H].
Qed.

Section in_order.
  Context (merges : merge_map) (ms : list ((N * N) * N)).
  Context (HL : forall a b k r, merges a b = Some (k, r) <-> nth_error ms (N.to_nat k) = Some ((a, b), r)) (HO : ordered ms).

  Definition clean (k : nat) (w : list (N * nat)) : Prop :=
    forall p j n, In p (windows (map fst w)) -> merges (fst p) (snd p) = Some (j, n) -> k <= N.to_nat j.

  Lemma after_result k a b r x y j n : nth_error ms k = Some ((a, b), r) -> merges x y = Some (j, n) -> x = r \/ y = r -> S k <= N.to_nat j.
  Proof.
    intros Hk Hj E. apply HL in Hj. destruct (le_lt_dec (N.to_nat j) k) as [L|L]; [|lia]. exfalso.
    destruct (nth_error_split _ _ Hj) as (p1 & p2 & EQ & L1).
    assert (X : In r (n :: map snd p2)).
    { rewrite EQ in Hk. rewrite nth_error_app2 in Hk by lia. destruct (k - length p1) as [|i]; cbn [nth_error] in Hk; [injection Hk as -> -> ->; left; reflexivity|].
      right. apply (in_map snd _ (a, b, r)). eapply nth_error_In. exact Hk. }
    destruct (HO p1 x y n p2 EQ r X) as [X1 X2]. destruct E as [E|E]; congruence.
  Qed.

  Lemma steps_app R a b c : steps R a b -> steps R b c -> steps R a c.
  Proof. intros H1 H2. induction H1 as [|? ? ? HR _ IH]; [exact H2|]. econstructor; [exact HR|]. apply IH. exact H2. Qed.

  Lemma pass k a b r : nth_error ms k = Some ((a, b), r) -> forall n Q P, length Q <= n -> clean k (P ++ Q) -> clean (S k) (P ++ firstn 1 Q) ->
    steps (greedy merges) (P ++ Q) (P ++ replace a b r Q) /\ clean (S k) (P ++ replace a b r Q).
  Proof.
    intros Hk. induction n as [|n IH]; intros Q P L C1 C2.
    - destruct Q; [|cbn in L; lia]. split; [constructor|exact C2].
    - destruct Q as [|x Q]; [split; [constructor|exact C2]|]. destruct Q as [|y Q]; [split; [constructor|exact C2]|]. cbn [length] in L.
      rewrite replace_cons2. cbn [firstn] in C2. destruct (N.eqb (fst x) a && N.eqb (fst y) b) eqn:EQ.
      + apply andb_prop in EQ. destruct EQ as [E1 E2]. apply N.eqb_eq in E1, E2. set (z := (r, snd x + snd y)).
        assert (ST : greedy merges (P ++ x :: y :: Q) (P ++ z :: Q)).
        { exists (length P), (N.of_nat k). split.
          - apply (applies_at _ _ _ _ _ P (fst x) (snd x) (fst y) (snd y) Q r); [destruct x, y; reflexivity|reflexivity| |reflexivity]. apply HL. rewrite Nat2N.id, E1, E2. exact Hk.
          - intros k' r' l'' [pre u lu v lv post m EL EK EM _].
            assert (H : k <= N.to_nat r').
            { apply (C1 (u, v) r' m); [|exact EM]. rewrite EL, map_app. cbn [map fst]. rewrite windows_split. apply in_or_app. right. left. reflexivity. }
            destruct (N.eq_dec r' (N.of_nat k)) as [->|NE]; [|left; lia]. right. split; [reflexivity|]. destruct (le_lt_dec (length P) k') as [LE|LT]; [exact LE|]. exfalso.
            assert (X : In (u, v) (windows (map fst (P ++ [x])))).
            { assert (EF : P ++ [x] = pre ++ (u, lu) :: (v, lv) :: firstn (length P - length pre - 1) post).
              { apply (f_equal (firstn (length P + 1))) in EL. rewrite !firstn_app in EL. rewrite !firstn_all2 in EL by lia.
                replace (length P + 1 - length P) with 1 in EL by lia. cbn [firstn] in EL. rewrite EL, (firstn_all2 pre) by lia. f_equal.
                replace (length P + 1 - length pre) with (S (S (length P - length pre - 1))) by lia. reflexivity. }
              rewrite EF, map_app. cbn [map fst]. rewrite windows_split. apply in_or_app. right. left. reflexivity. }
            specialize (C2 (u, v) _ _ X EM). lia. }
        assert (NEW : forall p j m, In p (windows (map fst (P ++ [z]))) -> merges (fst p) (snd p) = Some (j, m) -> S k <= N.to_nat j).
        { intros p j m Hp Hm. rewrite map_app in Hp. apply windows_snoc in Hp. destruct Hp as [Hp|Hp].
          - apply (C2 p j m); [|exact Hm]. rewrite map_app. apply windows_grow. exact Hp.
          - apply (after_result k a b r _ _ j m Hk Hm). right. exact Hp. }
        assert (NX : forall t, fst t = r -> forall j m, merges (fst t) (snd t) = Some (j, m) -> S k <= N.to_nat j).
        { intros t Ht j m Hm. apply (after_result k a b r _ _ j m Hk Hm). left. exact Ht. }
        destruct (IH Q (P ++ [z])) as [S1 S2]; [lia| | |].
        * rewrite <- app_assoc. cbn [app]. intros p j m Hp Hm. rewrite map_app in Hp. cbn [map] in Hp. rewrite windows_split in Hp. apply in_app_or in Hp. destruct Hp as [Hp|Hp].
          -- assert (S k <= N.to_nat j); [|lia]. apply (NEW p j m); [|exact Hm]. rewrite map_app. exact Hp.
          -- apply windows_cons in Hp. destruct Hp as [Hp|Hp]; [specialize (NX p Hp j m Hm); lia|]. apply (C1 p j m); [|exact Hm].
             rewrite map_app. cbn [map]. rewrite windows_split. apply in_or_app. right. right. destruct Q as [|q Q]; [destruct Hp|]. right. exact Hp.
        * intros p j m Hp Hm. destruct Q as [|q Q]; cbn [firstn] in Hp; [rewrite app_nil_r in Hp; exact (NEW p j m Hp Hm)|]. rewrite <- app_assoc in Hp. cbn [app] in Hp.
          rewrite map_app in Hp. cbn [map] in Hp. rewrite windows_split in Hp. apply in_app_or in Hp. destruct Hp as [Hp|[<-|[]]]; [apply (NEW p j m); [rewrite map_app; exact Hp|exact Hm]|]. eapply NX; [|exact Hm]. reflexivity.
        * rewrite <- (app_assoc P [z] (replace a b r Q)) in S1, S2. rewrite <- (app_assoc P [z] Q) in S1. cbn [app] in S1, S2. split; [|exact S2]. econstructor; [exact ST|exact S1].
      + destruct (IH (y :: Q) (P ++ [x])) as [S1 S2]; [cbn [length]; lia|rewrite <- app_assoc; exact C1| |rewrite <- (app_assoc P [x] (replace a b r (y :: Q))) in S1, S2; rewrite <- (app_assoc P [x] (y :: Q)) in S1; split; [exact S1|exact S2]].
        cbn [firstn]. rewrite <- app_assoc. cbn [app]. intros p j m Hp Hm. rewrite map_app in Hp. cbn [map] in Hp. rewrite windows_split in Hp. apply in_app_or in Hp. destruct Hp as [Hp|[<-|[]]].
        * apply (C2 p j m); [rewrite map_app; exact Hp|exact Hm].
        * assert (H : k <= N.to_nat j).
          { apply (C1 (fst x, fst y) j m); [|exact Hm]. rewrite map_app. cbn [map]. rewrite windows_split. apply in_or_app. right. left. reflexivity. }
          destruct (Nat.eq_dec k (N.to_nat j)) as [->|]; [|lia]. exfalso. apply HL in Hm. rewrite Hm in Hk. injection Hk as E1 E2 _. cbn [fst snd] in E1, E2. rewrite E1, E2, !N.eqb_refl in EQ. discriminate.
  Qed.

  Lemma in_order_canonical l : canonical merges l (in_order ms l).
  Proof.
    assert (H : forall p1 p2, ms = p1 ++ p2 -> steps (greedy merges) l (in_order p1 l) /\ clean (length p1) (in_order p1 l)).
    { induction p1 as [|[[a b] r] p1 IH] using rev_ind; intros p2 E; [split; [apply rt1n_refl|intros p j n _ _; apply Nat.le_0_l]|].
      rewrite <- app_assoc in E. destruct (IH _ E) as [S1 C1]. unfold in_order in *. rewrite fold_left_app. cbn [fold_left fst snd]. rewrite app_length. cbn [length]. rewrite Nat.add_1_r.
      assert (Hk : nth_error ms (length p1) = Some ((a, b), r)) by (rewrite E, nth_error_app2, Nat.sub_diag by lia; reflexivity).
      destruct (pass _ a b r Hk _ (fold_left (fun w m => replace (fst (fst m)) (snd (fst m)) (snd m) w) p1 l) [] (le_n _) C1) as [S2 C2].
      { destruct (fold_left _ p1 l); intros ? ? ? []. }
      split; [eapply steps_app; [exact S1|exact S2]|exact C2]. }
    destruct (H ms [] (eq_sym (app_nil_r _))) as [S1 C1]. split; [exact S1|]. intros k r l'' [pre a la b lb post n EL _ EM _].
    assert (X : length ms <= N.to_nat r).
    { apply (C1 (a, b) r n); [|exact EM]. rewrite EL, map_app. cbn [map fst]. rewrite windows_split. apply in_or_app. right. left. reflexivity. }
    apply HL in EM. apply nth_error_None in X. congruence.
  Qed.
End in_order.

Lemma ranked_lookup m ms : b_merges m = final_merges 0 ms [] -> NoDup (map fst ms) -> forall a b k r, b_lookup m a b = Some (k, r) <-> nth_error ms (N.to_nat k) = Some ((a, b), r).
Proof.
  intros E D a b k r. unfold b_lookup. rewrite E, (final_merges_spec ms 0 [] (a, b) k r ltac:(discriminate)). split.
  - intros [(j & EJ & H & _)|[H _]]; [|discriminate]. rewrite EJ. exact H.
  - intros H. left. exists (N.to_nat k). split; [reflexivity|]. split; [exact H|]. intros j' r' L H'.
    rewrite NoDup_nth_error in D. apply (map_nth_error fst) in H, H'. assert (X : N.to_nat k = j'); [|lia]. apply D; [apply nth_error_Some; congruence|]. rewrite H, H'. reflexivity.
Qed.

(** ** What is learnt is determined *)
Lemma frequency_perm a b cp cp' : Permutation cp cp' -> frequency a b cp = frequency a b cp'.
Proof.
  unfold frequency. induction 1 as [|x l l' _ IH|x y l|l1 l2 l3 _ IH1 _ IH2]; cbn [fold_right]; [reflexivity|rewrite IH; reflexivity|lia|congruence].
Qed.
Lemma candidate_perm mx cp cp' a b : Permutation cp cp' -> candidate mx cp a b -> candidate mx cp' a b.
Proof.
  intros P (w & n & pre & x & y & post & HI & H). exists w, n, pre, x, y, post. split; [eapply Permutation_in; eassumption|exact H].
Qed.
Lemma best_perm tr cp cp' a b : Permutation cp cp' -> best tr cp a b -> best tr cp' a b.
Proof.
  intros P (C & F & M). split; [eapply candidate_perm; eassumption|]. rewrite <- (frequency_perm a b _ _ P). split; [exact F|]. intros a' b' C'. rewrite <- (frequency_perm a' b' _ _ P). apply M. eapply candidate_perm; [symmetry; exact P|exact C'].
Qed.
Lemma best_unique tr cp a b a' b' : best tr cp a b -> best tr cp a' b' -> a = a' /\ b = b'.
Proof.
  intros (C1 & _ & M1) (C2 & _ & M2). specialize (M1 _ _ C2). specialize (M2 _ _ C1). unfold pair_le in *. cbn [fst snd] in *. lia.
Qed.
Lemma joined_unique prefix a b t t' : joined prefix a b t -> joined prefix a b t' -> t = t'.
Proof.
  intros [(p & x & E & EB & ->)|(N1 & ->)] [(p' & x' & E' & EB' & ->)|(N2 & ->)]; [|exfalso; eapply N2; eassumption|exfalso; eapply N1; eassumption|reflexivity].
  rewrite E in E'. injection E' as <-. rewrite EB in EB'. apply app_inv_head in EB'. congruence.
Qed.

Lemma learns_det tr toks cp ms toks' cp' : learns tr toks cp ms toks' cp' -> NoDup toks ->
  forall cp2 ms2 toks2 cp2', Permutation cp cp2 -> learns tr toks cp2 ms2 toks2 cp2' -> ms = ms2 /\ toks' = toks2.
Proof.
  induction 1 as [toks cp ST|toks cp a b r ta tb t toks1 ms toks' cp' LT BE EA EB J ET ER _ IH]; intros D cp2 ms2 toks2 cp2' P H2.
  - inversion H2 as [? ? ST2|? ? a b r ta tb t toks1 ms ? ? LT BE]; subst; [auto|]. exfalso. destruct ST as [X|X]; [lia|]. apply (best_perm _ _ cp) in BE; [|symmetry; exact P]. destruct BE as (C & F & _). specialize (X _ _ C). lia.
  - inversion H2 as [? ? ST2|? ? a' b' r' ta' tb' t' toks1' ms' ? ? LT' BE' EA' EB' J' ET' ER' L']; subst.
    + exfalso. destruct ST2 as [X|X]; [lia|]. apply (best_perm _ _ _ _ _ P) in BE. destruct BE as (C & F & _). specialize (X _ _ C). lia.
    + apply (best_perm _ _ cp) in BE'; [|symmetry; exact P]. destruct (best_unique _ _ _ _ _ _ BE BE') as [<- <-].
      assert (ta' = ta) by congruence. assert (tb' = tb) by congruence. subst ta' tb'. assert (t' = t) by (eapply joined_unique; eassumption). subst t'.
      assert (E1 : toks1' = toks1) by (destruct ET as [[X ->]|[X ->]], ET' as [[Y ->]|[Y ->]]; try reflexivity; contradiction). subst toks1'.
      assert (D1 : NoDup toks1) by (destruct ET as [[X ->]|[X ->]]; [exact D|apply NoDup_snoc; assumption]).
      assert (Er : r' = r).
      { assert (X : N.to_nat r' = N.to_nat r); [|lia]. rewrite NoDup_nth_error in D1. apply D1; [apply nth_error_Some; congruence|]. congruence. }
      subst r'. destruct (IH D1 _ _ _ _ (Permutation_map _ P) L') as [-> ->]. auto.
Qed.

Lemma learns_segments tr toks cp ms toks' cp' : learns tr toks cp ms toks' cp' -> cp' = map (fun wn => (in_order ms (fst wn), snd wn)) cp.
Proof.
  induction 1 as [toks cp _|toks cp a b r ta tb t toks1 ms toks' cp' _ _ _ _ _ _ _ _ IH].
  - unfold in_order. cbn [fold_left]. rewrite <- (map_id cp) at 1. apply map_ext. intros []; reflexivity.
  - rewrite IH, map_map. apply map_ext. intros []; reflexivity.
Qed.

Lemma sorted_unique : forall l l' : list N, StronglySorted N.lt l -> StronglySorted N.lt l' -> (forall c, In c l <-> In c l') -> l = l'.
Proof.
  induction l as [|x l IH]; intros l' S1 S2 H.
  - destruct l' as [|y l']; [reflexivity|]. destruct (proj2 (H y) (or_introl eq_refl)).
  - destruct l' as [|y l']; [destruct (proj1 (H x) (or_introl eq_refl))|]. inversion S1 as [|? ? S1' F1]; subst. inversion S2 as [|? ? S2' F2]; subst. rewrite Forall_forall in F1, F2.
    assert (x = y).
    { destruct (proj1 (H x) (or_introl eq_refl)) as [E|E]; [auto|]. destruct (proj2 (H y) (or_introl eq_refl)) as [E'|E']; [auto|]. apply F2 in E. apply F1 in E'. lia. }
    subst y. f_equal. apply IH; [assumption..|]. intros c. specialize (H c). cbn [In] in H. split; intros X.
    + destruct (proj1 H (or_intror X)) as [<-|Y]; [apply F1 in X; lia|exact Y].
    + destruct (proj2 H (or_intror X)) as [<-|Y]; [apply F2 in X; lia|exact Y].
Qed.

Lemma kept_alphabet_unique tr wc wc2 al al2 : tr_limit tr = None -> Permutation wc wc2 -> kept_alphabet tr wc al -> kept_alphabet tr wc2 al2 -> al = al2.
Proof.
  unfold kept_alphabet. cbv zeta. intros -> P (S1 & A1 & B1) (S2 & A2 & B2). apply sorted_unique; [assumption..|].
  assert (T : forall wc wc2 : list (str * N), Permutation wc wc2 -> forall c, (In c (tr_initial tr) \/ exists w n, In (w, n) wc /\ In c w) -> In c (tr_initial tr) \/ exists w n, In (w, n) wc2 /\ In c w).
  { intros x y Pxy c [H|(w & n & H1 & H2)]; [auto|right]. exists w, n. split; [eapply Permutation_in; eassumption|exact H2]. }
  intros c. split; intros H.
  - apply B2. eapply T; [exact P|]. apply A1. exact H.
  - apply B1. eapply T; [symmetry; exact P|]. apply A2. exact H.
Qed.

Lemma distinct_in_app l extra : (forall t, In t extra -> In t l) -> distinct (l ++ extra) = distinct l.
Proof.
  intros H. induction extra as [|t extra IH] using rev_ind; [rewrite app_nil_r; reflexivity|]. rewrite app_assoc, (proj1 (distinct_snoc (l ++ extra) t)).
  - apply IH. intros x Hx. apply H. apply in_or_app. auto.
  - apply in_or_app. left. apply H. apply in_or_app. right. left. reflexivity.
Qed.
Lemma first_tokens_plain tr wc al toks : plain tr -> first_tokens tr wc al toks -> toks = distinct (tr_special tr ++ map (fun c => [c]) al).
Proof.
  intros [P1 P2] (extra & -> & H). rewrite app_assoc. apply distinct_in_app. intros t Ht. destruct (H t Ht) as (w & n & p & c & q & _ & _ & K & ->). unfold affixed. rewrite P1, P2.
  assert (E : (if is_nil p then [] else []) ++ [c] ++ (if is_nil q then [] else []) = [c]) by (destruct (is_nil p), (is_nil q); reflexivity). rewrite E.
  apply in_or_app. destruct K as [K|K]; [left; exact K|right]. apply in_map_iff. exists c. auto.
Qed.

Lemma spelled_unique tr toks first s w : NoDup toks -> spelled tr toks first s w -> forall w', spelled tr toks first s w' -> w = w'.
Proof.
  intros D. induction 1 as [first|first c s i w K E Sp IH|first c s w K Sp IH]; intros w' H'; inversion H' as [|? ? ? i' w2 K' E' Sp'|? ? ? w2 K' Sp']; subst; try contradiction; [reflexivity| |apply IH; assumption].
  assert (N.to_nat i = N.to_nat i') by (rewrite NoDup_nth_error in D; apply D; [apply nth_error_Some; congruence|congruence]). assert (i = i') by lia. subst i'. f_equal. apply IH. exact Sp'.
Qed.

Lemma corpus_perm tr toks : NoDup toks -> forall wc wc2 : list (str * N), Permutation wc wc2 -> forall ws ws2,
  Forall2 (fun (wn : str * N) w => spelled tr toks true (fst wn) w) wc ws -> Forall2 (fun (wn : str * N) w => spelled tr toks true (fst wn) w) wc2 ws2 ->
  Permutation (combine ws (map snd wc)) (combine ws2 (map snd wc2)).
Proof.
  intros D.
  assert (U : forall wc : list (str * N), forall ws ws2, Forall2 (fun (wn : str * N) w => spelled tr toks true (fst wn) w) wc ws -> Forall2 (fun (wn : str * N) w => spelled tr toks true (fst wn) w) wc ws2 -> ws = ws2).
  { induction wc as [|x wc IH]; intros ws ws2 H1 H2; inversion H1; inversion H2; subst; [reflexivity|]. f_equal; [eapply spelled_unique; eassumption|apply IH; assumption]. }
  induction 1 as [|x l l' P IH|x y l|l1 l2 l3 P1 IH1 P2 IH2]; intros ws ws2 H1 H2.
  - inversion H1; inversion H2; subst. constructor.
  - inversion H1 as [|? a ? ws' A1 B1]; inversion H2 as [|? b ? ws2' A2 B2]; subst. cbn [map combine]. rewrite (spelled_unique _ _ _ _ _ D A1 _ A2). constructor. apply IH; assumption.
  - inversion H1 as [|? a ? ws' A1 B1]; subst. inversion B1 as [|? a' ? ws'' A1' B1']; subst. inversion H2 as [|? b ? ws2' A2 B2]; subst. inversion B2 as [|? b' ? ws2'' A2' B2']; subst. cbn [map combine].
    rewrite (spelled_unique _ _ _ _ _ D A1 _ A2'), (spelled_unique _ _ _ _ _ D A1' _ A2), (U _ _ _ B1' B2'). apply perm_swap.
  - assert (X : exists ws1, Forall2 (fun (wn : str * N) w => spelled tr toks true (fst wn) w) l2 ws1).
    { clear - P1 H1. assert (Y : forall x, In x l2 -> exists w, spelled tr toks true (fst x) w).
      { intros x Hx. apply (Permutation_in _ (Permutation_sym P1)) in Hx. revert Hx. clear P1. induction H1 as [|y w l ws Sp _ IH]; intros Hx; [destruct Hx|]. destruct Hx as [<-|Hx]; [eauto|apply IH; exact Hx]. }
      clear P1 H1. induction l2 as [|x l2 IH]; [exists []; constructor|]. destruct (Y x (or_introl eq_refl)) as (w & Sp). destruct IH as (ws1 & F); [intros y Hy; apply Y; right; exact Hy|]. exists (w :: ws1). constructor; assumption. }
    destruct X as (ws1 & F). etransitivity; [apply (IH1 ws ws1 H1 F)|apply (IH2 ws1 ws2 F H2)].
Qed.

(** ** Feeding *)
Definition count_of (m : list (str * N)) (w : str) : N := match aget str_eqb w m with Some k => k | None => 0%N end.

Lemma count_word_spec m w n : NoDup (map fst m) -> NoDup (map fst (count_word m w n)) /\ (forall x, count_of (count_word m w n) x = count_of m x + if str_eqb x w then n else 0)%N /\
  (forall x, In x (map fst (count_word m w n)) <-> x = w \/ In x (map fst m)).
Proof.
  intros D. unfold count_word. split; [apply aset_nodup; [apply str_eqb_eq|exact D]|]. split.
  - intros x. unfold count_of at 1 2. rewrite (aget_aset _ str_eqb_eq). destruct (str_eqb x w) eqn:E; [apply str_eqb_eq in E; subst; reflexivity|]. rewrite N.add_0_r. reflexivity.
  - intros x. apply aset_keys_in. apply str_eqb_eq.
Qed.

Lemma str_eqb_spec_dec (a b : str) (A : Type) (x y : A) : (if str_eqb a b then x else y) = if list_eq_dec N.eq_dec a b then x else y.
Proof. destruct (list_eq_dec N.eq_dec a b) as [->|E]; [rewrite str_eqb_refl; reflexivity|]. destruct (str_eqb a b) eqn:X; [apply str_eqb_eq in X; contradiction|reflexivity]. Qed.

(** A table of counts: each word once, with its number, never zero. *)
Definition table (m : list (str * N)) (f : str -> N) : Prop := NoDup (map fst m) /\ (forall w, count_of m w = f w) /\ (forall w, In w (map fst m) -> (0 < f w)%N).

Lemma table_words ws : table (fold_left (fun m w => count_word m w 1) ws []) (fun w => N.of_nat (count_occ (list_eq_dec N.eq_dec) ws w)).
Proof.
  induction ws as [|w ws (D & C & P)] using rev_ind; [split; [constructor|split; [reflexivity|intros w []]]|]. rewrite fold_left_app. cbn [fold_left].
  destruct (count_word_spec _ w 1 D) as (D1 & C1 & K1). split; [exact D1|].
  assert (A : forall x, count_occ (list_eq_dec N.eq_dec) (ws ++ [w]) x = count_occ (list_eq_dec N.eq_dec) ws x + if str_eqb x w then 1 else 0).
  { intros x. rewrite count_occ_app. cbn [count_occ]. f_equal. rewrite str_eqb_spec_dec. destruct (list_eq_dec N.eq_dec w x) as [E|E], (list_eq_dec N.eq_dec x w) as [E'|E']; congruence. }
  split.
  - intros x. rewrite C1, C, A. destruct (str_eqb x w); lia.
  - intros x Hx. rewrite A. apply K1 in Hx. destruct Hx as [->|Hx]; [rewrite str_eqb_refl; lia|]. specialize (P x Hx). lia.
Qed.

Lemma table_merge acc f : table acc f -> forall ws g, table ws g -> table (fold_left (fun m wn => count_word m (fst wn) (snd wn)) ws acc) (fun w => f w + g w)%N.
Proof.
  intros TA ws g (D2 & C2 & P2).
  assert (H : forall l acc f, table acc f -> NoDup (map fst l) -> (forall w n, In (w, n) l -> (0 < n)%N) -> table (fold_left (fun m wn => count_word m (fst wn) (snd wn)) l acc) (fun w => f w + count_of l w)%N).
  { clear. induction l as [|[w n] l IH]; intros acc f (D & C & P) DL PL.
    - cbn [fold_left]. split; [exact D|]. split; [intros w; rewrite C; unfold count_of; cbn; lia|]. intros w Hw. specialize (P w Hw). lia.
    - cbn [fold_left fst snd]. cbn [map] in DL. apply NoDup_cons_iff in DL. cbn [fst] in DL. destruct DL as [NI DL]. destruct (count_word_spec acc w n D) as (D1 & C1 & K1).
      assert (T1 : table (count_word acc w n) (fun x => f x + if str_eqb x w then n else 0)%N).
      { split; [exact D1|]. split; [intros x; rewrite C1, C; reflexivity|]. intros x Hx. apply K1 in Hx. destruct Hx as [->|Hx]; [rewrite str_eqb_refl; specialize (PL w n (or_introl eq_refl)); lia|]. specialize (P x Hx). destruct (str_eqb x w); lia. }
      destruct (IH _ _ T1 DL) as (D3 & C3 & P3); [intros x k Hx; apply (PL x k); right; exact Hx|].
      assert (E : forall x, (f x + (if str_eqb x w then n else 0) + count_of l x = f x + count_of ((w, n) :: l) x)%N).
      { intros x. unfold count_of at 2. cbn [aget]. destruct (str_eqb x w) eqn:EX.
        - apply str_eqb_eq in EX. subst x. assert (Z : count_of l w = 0%N); [|lia]. unfold count_of. destruct (aget str_eqb w l) as [k|] eqn:EG; [|reflexivity]. apply (aget_In _ str_eqb_eq) in EG. exfalso. apply NI. apply (in_map fst) in EG. exact EG.
        - unfold count_of. lia. }
      split; [exact D3|]. split; [intros x; rewrite C3; apply E|]. intros x Hx. rewrite <- E. apply P3. exact Hx. }
  assert (PW : forall w n, In (w, n) ws -> (0 < n)%N).
  { intros w n HI. pose proof (P2 w (in_map fst ws (w, n) HI)) as X. rewrite <- C2 in X. unfold count_of in X. rewrite (In_aget _ str_eqb_eq _ _ _ D2 HI) in X. exact X. }
  destruct (H ws acc f TA D2 PW) as (D3 & C3 & P3).
  split; [exact D3|]. split; [intros w; rewrite C3, C2; reflexivity|]. intros w Hw. rewrite <- C2. apply P3. exact Hw.
Qed.

Lemma table_ext m f g : (forall w, f w = g w) -> table m f -> table m g.
Proof. intros E (D & C & P). split; [exact D|]. split; [intros w; rewrite C; apply E|]. intros w Hw. rewrite <- E. apply P. exact Hw. Qed.

Lemma reduce_table {S E} (process : S -> res E (list str)) t : (forall s, In s (leaves t) -> exists ws, process s = Ok ws) ->
  exists m, reduce process t = Ok m /\ table m (fun w => N.of_nat (occurrences process w (leaves t))).
Proof.
  induction t as [|s|l IHl r IHr]; intros H; cbn [leaves reduce] in *.
  - exists []. split; [reflexivity|]. split; [constructor|]. split; [reflexivity|intros w []].
  - destruct (H s (or_introl eq_refl)) as (ws & Es). exists (fold_left (fun m w => count_word m w 1) ws []). split; [unfold seq_counts; rewrite Es; reflexivity|].
    eapply table_ext; [|apply table_words]. intros w. unfold occurrences. cbn [map list_sum fold_right]. rewrite Es. lia.
  - destruct IHl as (ml & El & Tl); [intros s Hs; apply H, in_or_app; auto|]. destruct IHr as (mr & Er & Tr); [intros s Hs; apply H, in_or_app; auto|]. rewrite El, Er. eexists. split; [reflexivity|].
    eapply table_ext; [|apply table_merge; [exact Tl|exact Tr]]. intros w. unfold occurrences. rewrite map_app, list_sum_app. lia.
Qed.

Lemma table_entries m f w n : table m f -> In (w, n) m <-> n = f w /\ (0 < n)%N.
Proof.
  intros (D & C & P). split.
  - intros H. pose proof (In_aget _ str_eqb_eq _ _ _ D H) as G. specialize (C w). unfold count_of in C. rewrite G in C. split; [exact C|]. rewrite C. apply P. apply (in_map fst) in H. exact H.
  - intros [-> Q]. specialize (C w). unfold count_of in C. destruct (aget str_eqb w m) as [k|] eqn:G; [|lia]. apply (aget_In _ str_eqb_eq) in G. subst k. exact G.
Qed.
Lemma table_perm m m' f : table m f -> table m' f -> Permutation m m'.
Proof.
  intros T T'. assert (ND : forall m, table m f -> NoDup m) by (intros x (D & _); apply (NoDup_map_inv _ _ D)). apply NoDup_Permutation; [apply ND; exact T|apply ND; exact T'|].
  intros [w n]. rewrite (table_entries _ _ w n T), (table_entries _ _ w n T'). reflexivity.
Qed.
Lemma occurrences_perm {S E} (process : S -> res E (list str)) w l l' : Permutation l l' -> occurrences process w l = occurrences process w l'.
Proof.
  intros P. unfold occurrences. apply (Permutation_map (fun s => match process s with Ok ws => count_occ (list_eq_dec N.eq_dec) ws w | _ => 0 end)) in P. revert P.
  generalize (map (fun s => match process s with Ok ws => count_occ (list_eq_dec N.eq_dec) ws w | _ => 0 end) l) (map (fun s => match process s with Ok ws => count_occ (list_eq_dec N.eq_dec) ws w | _ => 0 end) l').
  intros a b P. induction P; unfold list_sum in *; cbn [fold_right]; lia.
Qed.

Lemma reduce_fails {S E} (process : S -> res E (list str)) t : (forall s, In s (leaves t) -> process s <> Panic) ->
  (exists e, reduce process t = Err e) <-> exists s e, In s (leaves t) /\ process s = Err e.
Proof.
  intros NP.
  assert (H : match reduce process t with Ok _ => forall s, In s (leaves t) -> exists ws, process s = Ok ws | Err _ => exists s e, In s (leaves t) /\ process s = Err e | Panic => False end).
  { induction t as [|s|l IHl r IHr]; cbn [leaves reduce] in *.
    - intros s [].
    - unfold seq_counts. specialize (NP s (or_introl eq_refl)). destruct (process s) as [ws|e|] eqn:Es; cbn [bind]; [intros x [<-|[]]; eauto|exists s, e; split; [left; reflexivity|exact Es]|congruence].
    - specialize (IHl (fun s Hs => NP s (in_or_app _ _ _ (or_introl Hs)))). specialize (IHr (fun s Hs => NP s (in_or_app _ _ _ (or_intror Hs)))).
      destruct (reduce process l) as [ml|el|], (reduce process r) as [mr|er|]; try contradiction.
      + intros s Hs. apply in_app_or in Hs. destruct Hs; auto.
      + destruct IHr as (s & e & X & Y). exists s, e. split; [apply in_or_app; auto|exact Y].
      + destruct IHl as (s & e & X & Y). exists s, e. split; [apply in_or_app; auto|exact Y].
      + destruct IHl as (s & e & X & Y). exists s, e. split; [apply in_or_app; auto|exact Y]. }
  split.
  - intros (e & X). rewrite X in H. exact H.
  - intros (s & e & X & Y). destruct (reduce process t) as [m|e'|]; [|eauto|contradiction]. destruct (H s X) as (ws & Z). congruence.
Qed.
