(** Proofs about training: when the results of merges are new ids, the counts in
    the queue are right and the most frequent pair is merged. *)
From Verif Require Import Base ListFacts AMap EncodingModel BpeWordModel BpeModel BpeTrainModel BpeTrainSpec BpeTrainProofs BpeTrainProofs2 BpeTrainProofs3 BpeTrainProofs4.
From Coq Require Import ZArith.

(** ** Induction over the loop *)
Definition first_of (top : tmerge) (q : list tmerge) : Prop :=
  forall e', In e' q -> (tm_count e' < tm_count top)%Z \/ (tm_count e' = tm_count top /\ pair_le (tm_pair top) (tm_pair e')).
Definition exact (st : tstate) (top : tmerge) : Prop := tm_count top = as_u64 (pair_count (ts_pc st) (tm_pair top)).
Definition enough (tr : trainer) (top : tmerge) : Prop := (1 <= tm_count top /\ Z.of_N (tr_min_frequency tr) <= tm_count top)%Z.

Inductive stopped (tr : trainer) (st : tstate) : Prop :=
| stop_full : tr_vocab_size tr <= length (v_words (ts_voc st)) -> stopped tr st
| stop_empty : ts_queue st = [] -> stopped tr st
| stop_rare top q : Permutation (ts_queue st) (top :: q) -> first_of top q -> exact st top -> ~ enough tr top -> stopped tr st.

Lemma train_loop_ind pop tr counts w0 (P : tstate -> Prop) : train_heap pop ->
  (forall st top q, ginv counts w0 st -> P st -> Permutation (ts_queue st) (top :: q) -> P (repushed st top q)) ->
  (forall st top q st' ta tb t r wtu, ginv counts w0 st -> P st -> length (v_words (ts_voc st)) < tr_vocab_size tr ->
     Permutation (ts_queue st) (top :: q) -> first_of top q -> entry_ok (length (v_words (ts_voc st))) (ts_pc st) (ts_words st) top ->
     exact st top -> enough tr top -> merge_step tr counts top q st st' ta tb t r wtu -> P st') ->
  forall fuel st st', ginv counts w0 st -> P st -> train_loop pop tr fuel counts st = Ok st' -> ginv counts w0 st' /\ P st' /\ stopped tr st'.
Proof.
  intros HP H1 H2. induction fuel as [|fuel IH]; intros st st' G HS E; [discriminate|].
  destruct (train_loop_turn pop tr counts w0 fuel st HP G) as [[C E']|[C [[C' E']|(top & q & PQ & MX & EO & [[NE E']|[EQ [[L E']|[L (st1 & ta & tb & t & r & wtu & _ & M & E')]]]])]]]; rewrite E' in E.
  - injection E as <-. split; [exact G|]. split; [exact HS|]. apply stop_full. exact C.
  - injection E as <-. split; [exact G|]. split; [exact HS|]. apply stop_empty. exact C'.
  - eapply IH; [| |exact E]; [apply repushed_ginv; assumption|apply H1; assumption].
  - injection E as <-. split; [exact G|]. split; [exact HS|]. eapply stop_rare; [exact PQ|exact MX|exact EQ|]. unfold enough. lia.
  - eapply IH; [| |exact E].
    + eapply merge_step_ginv; [exact G|apply wsum_nonneg|exact EO| |exact M]. intros e He. eapply Permutation_in; [symmetry; exact PQ|right; exact He].
    + eapply H2; eauto.
Qed.

Lemma NoDup_app_intro {A} (l l' : list A) : NoDup l -> NoDup l' -> (forall x, In x l -> In x l' -> False) -> NoDup (l ++ l').
Proof.
  induction l as [|x l IH]; intros D D' H; [exact D'|]. apply NoDup_cons_iff in D. destruct D as [D1 D2]. cbn [app]. constructor.
  - rewrite in_app_iff. intros [X|X]; [contradiction|]. apply (H x); [left; reflexivity|exact X].
  - apply IH; [exact D2|exact D'|]. intros y Y1 Y2. apply (H y); [right; exact Y1|exact Y2].
Qed.

(** ** Occurrences and replacement *)
Lemma occ_replace_le p c1 c2 r : fst p <> r -> snd p <> r -> forall n w prev, length w <= n ->
  (occ p (pv prev ++ replace c1 c2 r w) <= occ p (pv prev ++ w))%Z.
Proof.
  intros N1 N2. induction n as [|n IH]; intros w prev L; [destruct w; [cbn [replace]; lia|cbn in L; lia]|]. destruct w as [|x w1]; [cbn [replace]; lia|]. cbn [replace]. destruct w1 as [|y w2]; [lia|]. cbn [length] in L.
  assert (T : forall z l, (occ p l <= occ p (z :: l))%Z).
  { intros z [|z' l]; [change (occ p []) with 0%Z; apply occ_nonneg|]. rewrite occ_cons2, hit_eq. destruct (pair_eqb _ _); lia. }
  assert (R1 : forall l z, occ p ((r, z) :: l) = occ p l).
  { intros [|z' l] z; [reflexivity|]. rewrite occ_cons2, hit_eq. cbn [fst]. replace (pair_eqb p (r, fst z')) with false; [lia|].
    symmetry. destruct (pair_eqb p (r, fst z')) eqn:E; [|reflexivity]. apply pair_eqb_eq in E. subst p. cbn in N1. congruence. }
  destruct (N.eqb (fst x) c1 && N.eqb (fst y) c2).
  - specialize (IH w2 None ltac:(lia)). cbn [pv app] in IH. destruct prev as [z|]; cbn [pv app].
    + rewrite occ_cons2, hit_eq. cbn [fst]. replace (pair_eqb p (fst z, r)) with false.
      2: { symmetry. destruct (pair_eqb p (fst z, r)) eqn:E; [|reflexivity]. apply pair_eqb_eq in E. subst p. cbn in N2. congruence. }
      rewrite R1. pose proof (T y w2). pose proof (T x (y :: w2)). pose proof (T z (x :: y :: w2)). lia.
    + rewrite R1. pose proof (T y w2). pose proof (T x (y :: w2)). lia.
  - specialize (IH (y :: w2) (Some x) ltac:(cbn [length]; lia)). cbn [pv app] in IH. destruct prev as [z|]; cbn [pv app]; [|exact IH]. rewrite !(occ_cons2 p z x). lia.
Qed.

Lemma occ_replace_zero c1 c2 r : r <> c1 -> r <> c2 -> forall n w, length w <= n -> occ (c1, c2) (replace c1 c2 r w) = 0%Z.
Proof.
  intros N1 N2. induction n as [|n IH]; intros w L; [destruct w; [reflexivity|cbn in L; lia]|]. destruct w as [|x w1]; [reflexivity|]. cbn [replace]. destruct w1 as [|y w2]; [reflexivity|]. cbn [length] in L.
  destruct (N.eqb (fst x) c1 && N.eqb (fst y) c2) eqn:M.
  - specialize (IH w2 ltac:(lia)). destruct (replace c1 c2 r w2) as [|z l]; [reflexivity|]. rewrite occ_cons2, hit_eq, IH. cbn [fst].
    replace (pair_eqb (c1, c2) (r, fst z)) with false; [reflexivity|]. symmetry. destruct (pair_eqb (c1, c2) (r, fst z)) eqn:E; [|reflexivity]. apply pair_eqb_eq in E. congruence.
  - specialize (IH (y :: w2) ltac:(cbn [length]; lia)).
    assert (H : exists z l, replace c1 c2 r (y :: w2) = z :: l /\ (fst z = fst y \/ fst z = r)).
    { cbn [replace]. destruct w2 as [|z w3]; [do 2 eexists; split; [reflexivity|left; reflexivity]|]. destruct (N.eqb (fst y) c1 && N.eqb (fst z) c2); do 2 eexists; (split; [reflexivity|]); [right|left]; reflexivity. }
    destruct H as (z & l & E & H). rewrite E in *. rewrite occ_cons2, hit_eq, IH. replace (pair_eqb (c1, c2) (fst x, fst z)) with false; [reflexivity|].
    symmetry. destruct (pair_eqb (c1, c2) (fst x, fst z)) eqn:E'; [|reflexivity]. apply pair_eqb_eq in E'. injection E' as E1 E2. destruct H as [H|H]; [|congruence].
    rewrite <- E1, E2, H, !N.eqb_refl in M. discriminate.
Qed.

Lemma occ_in p w : (0 < occ p w)%Z -> exists pre x y post, w = pre ++ x :: y :: post /\ fst x = fst p /\ fst y = snd p.
Proof.
  induction w as [|x w IH]; [unfold occ; cbn; lia|]. destruct w as [|y w]; [rewrite occ_one; lia|]. rewrite occ_cons2, hit_eq. intros H. destruct (pair_eqb p (fst x, fst y)) eqn:E.
  - apply pair_eqb_eq in E. subst p. exists [], x, y, w. auto.
  - destruct IH as (pre & a & b & post & E' & H'); [lia|]. exists (x :: pre), a, b, post. split; [rewrite E'; reflexivity|exact H'].
Qed.
Lemma occ_of p pre x y post : fst x = fst p -> fst y = snd p -> (0 < occ p (pre ++ x :: y :: post))%Z.
Proof.
  intros H1 H2. induction pre as [|z pre IH].
  - cbn [app]. rewrite occ_cons2, hit_eq. rewrite H1, H2. replace (pair_eqb p (fst p, snd p)) with true; [pose proof (occ_nonneg p (y :: post)); lia|]. symmetry. apply pair_eqb_eq. destruct p; reflexivity.
  - cbn [app]. destruct (pre ++ x :: y :: post) as [|z' l]; [unfold occ in IH; cbn in IH; lia|]. rewrite occ_cons2, hit_eq. destruct (pair_eqb _ _); lia.
Qed.
Lemma occ_windows p w : (0 < occ p w)%Z <-> In p (windows (map fst w)).
Proof.
  unfold occ. rewrite adjacent_windows. induction (windows (map fst w)) as [|q l IH]; [cbn; split; [lia|intros []]|]. cbn [fold_right].
  assert (0 <= fold_right (fun q a => (if pair_eqb p q then 1 else 0) + a) 0 l)%Z by (clear; induction l as [|q l IH]; cbn [fold_right]; [lia|destruct (pair_eqb p q); lia]).
  destruct (pair_eqb p q) eqn:E.
  - apply pair_eqb_eq in E. subst q. split; [intros _; left; reflexivity|intros _; lia].
  - rewrite Z.add_0_l, IH. split; [intros K; right; exact K|]. intros [<-|K]; [|exact K]. rewrite (proj2 (pair_eqb_eq q q) eq_refl) in E. discriminate.
Qed.

(** New changes are about pairs that may be merged. *)
Lemma word_merge_new_below c1 c2 r mx (len : N -> nat) : forall n w prev, length w <= n ->
  Forall (fun s => snd s = len (fst s)) (pv prev ++ w) -> (In c1 (map fst w) -> In c2 (map fst w) -> len r = len c1 + len c2) ->
  forall p, In (p, 1%Z) (snd (word_merge c1 c2 r mx prev w)) -> below mx (len (fst p) + len (snd p)) = true.
Proof.
  induction n as [|n IH]; intros w prev L F LR p H; [destruct w; [destruct H|cbn in L; lia]|].
  destruct w as [|[a la] w1]; [destruct H|]. cbn [word_merge] in H. destruct w1 as [|[b lb] w2].
  { destruct H. }
  cbn [length] in L. apply Forall_app in F. destruct F as [Fp F]. pose proof (Forall_inv F) as Fa. pose proof (Forall_inv_tail F) as F1. pose proof (Forall_inv F1) as Fb. pose proof (Forall_inv_tail F1) as F2. cbn [fst snd] in Fa, Fb.
  destruct (N.eqb a c1 && N.eqb b c2) eqn:M.
  - apply andb_prop in M. destruct M as [Ma Mb]. apply N.eqb_eq in Ma, Mb. subst a b.
    assert (LR' : len r = la + lb) by (rewrite LR; cbn [map fst In]; auto; lia).
    specialize (IH w2 (Some (r, la + lb)) ltac:(lia)). destruct (word_merge c1 c2 r mx (Some (r, la + lb)) w2) as [w' ch]. cbn [snd] in *.
    apply in_app_or in H. destruct H as [H|H].
    + destruct prev as [[q lq]|]; [|destruct H]. pose proof (Forall_inv Fp) as Fq. cbn [fst snd] in Fq. destruct H as [H|H]; [congruence|]. destruct (below mx (lq + (la + lb))) eqn:B; [|destruct H]. destruct H as [H|[]]. injection H as <-. cbn [fst snd]. rewrite <- Fq, LR'. exact B.
    + apply in_app_or in H. destruct H as [H|H].
      * destruct w2 as [|[q lq] w3]; [destruct H|]. pose proof (Forall_inv F2) as Fq. cbn [fst snd] in Fq. destruct H as [H|H]; [congruence|]. destruct (below mx (lq + (la + lb))) eqn:B; [|destruct H]. destruct H as [H|[]]. injection H as <-. cbn [fst snd]. rewrite <- Fq, LR', Nat.add_comm. exact B.
      * apply IH; [constructor; [cbn; lia|exact F2]|intros _ _; lia|exact H].
  - specialize (IH ((b, lb) :: w2) (Some (a, la)) ltac:(cbn [length]; lia)). destruct (word_merge c1 c2 r mx (Some (a, la)) ((b, lb) :: w2)) as [w' ch]. cbn [snd] in *.
    apply IH; [constructor; [exact Fa|exact F1]|intros H1 H2; apply LR; right; assumption|exact H].
Qed.

(** ** The invariant when results are new *)
Definition allowed (mx : option nat) (len : N -> nat) (p : N * N) : Prop :=
  (len (fst p) = 1 /\ len (snd p) = 1) \/ below mx (len (fst p) + len (snd p)) = true.

Record finv (tr : trainer) (counts : list N) (len : N -> nat) (U : list N) (M : list (N * N)) (st : tstate) : Prop := mkFinv {
  f_syms : forall w s, In w (ts_words st) -> In s w -> In (fst s) U /\ snd s = len (fst s);
  f_keys : forall p, In p (map fst (ts_pc st)) -> In (fst p) U /\ In (snd p) U;
  f_pc : forall p, ~ In p M -> allowed (tr_max_length tr) len p -> pair_count (ts_pc st) p = wsum (occ p) counts (ts_words st);
  f_merged : forall p w, In p M -> In w (ts_words st) -> occ p w = 0%Z;
  f_M : forall p, In p M -> In (fst p) U /\ In (snd p) U;
  f_queue : forall e, In e (ts_queue st) -> ~ In (tm_pair e) M /\ allowed (tr_max_length tr) len (tm_pair e) /\
     (wsum (occ (tm_pair e)) counts (ts_words st) <= tm_count e)%Z;
  f_nodup : NoDup (map tm_pair (ts_queue st));
  f_complete : forall p, ~ In p M -> allowed (tr_max_length tr) len p -> (0 < wsum (occ p) counts (ts_words st))%Z ->
     exists e, In e (ts_queue st) /\ tm_pair e = p;
  f_pos : forall e i, In e (ts_queue st) -> (0 < occ (tm_pair e) (nth i (ts_words st) []))%Z -> In i (tm_pos e);
  f_len : forall x, In x U -> 1 <= len x }.

Definition set_len (len : N -> nat) (r : N) (l : nat) : N -> nat := fun x => if N.eqb x r then l else len x.

Lemma set_len_other len r l x : x <> r -> set_len len r l x = len x.
Proof. intros H. unfold set_len. destruct (N.eqb_spec x r); [contradiction|reflexivity]. Qed.
Lemma set_len_same len r l : set_len len r l r = l.
Proof. unfold set_len. rewrite N.eqb_refl. reflexivity. Qed.

Lemma allowed_other mx len r l p : fst p <> r -> snd p <> r -> allowed mx (set_len len r l) p <-> allowed mx len p.
Proof. intros H1 H2. unfold allowed. rewrite !set_len_other by assumption. reflexivity. Qed.

Lemma occ_absent p w (U : list N) : (forall s, In s w -> In (fst s) U) -> ~ In (fst p) U \/ ~ In (snd p) U -> occ p w = 0%Z.
Proof.
  intros H N. pose proof (occ_nonneg p w). destruct (Z.eq_dec (occ p w) 0) as [E|E]; [exact E|]. exfalso. destruct (occ_in p w ltac:(lia)) as (pre & x & y & post & -> & H1 & H2).
  destruct N as [N|N]; apply N; [rewrite <- H1|rewrite <- H2]; apply H; apply in_or_app; right; cbn; auto.
Qed.

Lemma wsum_zero f counts words : (forall w, In w words -> f w = 0%Z) -> wsum f counts words = 0%Z.
Proof. intros H. apply zsum_zero. intros i Hi. apply in_seq in Hi. rewrite H; [lia|]. apply nth_In. lia. Qed.

Lemma wsum_pos f counts words : (forall w, (0 <= f w)%Z) -> (0 < wsum f counts words)%Z ->
  exists i, i < length words /\ (0 < cnt counts i)%Z /\ (0 < f (nth i words []))%Z.
Proof.
  intros F H. unfold wsum in H. assert (G : forall l, (0 < zsum (fun i => (cnt counts i * f (nth i words []))%Z) l)%Z -> exists i, In i l /\ (0 < cnt counts i * f (nth i words []))%Z).
  { induction l as [|i l IH]; intros K; [cbn in K; lia|]. rewrite zsum_cons in K. destruct (Z_lt_dec 0 (cnt counts i * f (nth i words []))) as [L|L]; [exists i; split; [left; reflexivity|exact L]|].
    destruct IH as (j & J1 & J2); [lia|]. exists j. split; [right; exact J1|exact J2]. }
  destruct (G _ H) as (i & I1 & I2). apply in_seq in I1. exists i. pose proof (cnt_nonneg counts i). specialize (F (nth i words [])). split; [lia|].
  split; destruct (Z.eq_dec (cnt counts i) 0) as [E|E]; try lia; destruct (Z.eq_dec (f (nth i words [])) 0) as [E'|E']; lia.
Qed.

Lemma wsum_le f g counts ws ws' : length ws = length ws' -> (forall i, i < length ws -> (f (nth i ws []) <= g (nth i ws' []))%Z) -> (wsum f counts ws <= wsum g counts ws')%Z.
Proof.
  intros L H. unfold wsum. rewrite L. apply zsum_le. intros i Hi. apply in_seq in Hi. apply Z.mul_le_mono_nonneg_l; [apply cnt_nonneg|]. apply H. lia.
Qed.

Lemma net_changes_pos p ch : (forall q d, In (q, d) ch -> d = 1%Z \/ d = (-1)%Z) -> (0 < net_changes p ch)%Z -> In (p, 1%Z) ch.
Proof.
  induction ch as [|[q d] ch IH]; intros D H; [cbn in H; lia|]. change (net_changes p ((q, d) :: ch)) with ((if pair_eqb p q then d else 0) + net_changes p ch)%Z in H.
  destruct (pair_eqb p q) eqn:E.
  - apply pair_eqb_eq in E. subst q. destruct (D p d (or_introl eq_refl)) as [-> | ->]; [left; reflexivity|]. right. apply IH; [intros q d HI; apply (D q); right; exact HI|lia].
  - right. apply IH; [intros q' d' HI; apply (D q'); right; exact HI|lia].
Qed.

Lemma finv_repush tr counts w0 len U M st top q : ginv counts w0 st -> finv tr counts len U M st -> Permutation (ts_queue st) (top :: q) -> finv tr counts len U M (repushed st top q).
Proof.
  intros G [A B C D E F Gn H I J] PQ. assert (IT : In top (ts_queue st)) by (eapply Permutation_in; [symmetry; exact PQ|left; reflexivity]).
  assert (IQ : forall e, In e q -> In e (ts_queue st)) by (intros e He; eapply Permutation_in; [symmetry; exact PQ|right; exact He]).
  constructor; cbn [repushed ts_voc ts_words ts_pc ts_queue ts_merges]; try assumption.
  - intros e He. apply in_app_or in He. destruct He as [He|[<-|[]]]; [apply F, IQ; exact He|]. cbn [tm_pair tm_count]. destruct (F top IT) as (F1 & F2 & F3). split; [exact F1|]. split; [exact F2|].
    rewrite (C _ F1 F2). rewrite as_u64_nonneg; [lia|]. rewrite <- (C _ F1 F2). rewrite (C _ F1 F2). unfold wsum. clear. induction (seq 0 (length (ts_words st))) as [|i l IH]; [cbn; lia|]. rewrite zsum_cons. cbv beta. pose proof (Z.mul_nonneg_nonneg _ _ (cnt_nonneg counts i) (occ_nonneg (tm_pair top) (nth i (ts_words st) []))). lia.
  - rewrite map_app. cbn [map tm_pair]. assert (PM : Permutation (map tm_pair (ts_queue st)) (tm_pair top :: map tm_pair q)) by (apply (Permutation_map tm_pair) in PQ; exact PQ).
    eapply Permutation_NoDup; [|exact Gn]. rewrite PM. apply Permutation_cons_append.
  - intros p P1 P2 P3. destruct (H p P1 P2 P3) as (e & He & Ep). eapply Permutation_in in He; [|exact PQ]. destruct He as [->|He].
    + eexists. split; [apply in_or_app; right; left; reflexivity|exact Ep].
    + exists e. split; [apply in_or_app; left; exact He|exact Ep].
  - intros e i He Ho. apply in_app_or in He. destruct He as [He|[<-|[]]]; [apply I; auto|]. cbn [tm_pair tm_pos] in *. apply I; assumption.
Qed.

Lemma occ_wsum_nonneg p counts ws : (0 <= wsum (occ p) counts ws)%Z.
Proof.
  unfold wsum. induction (seq 0 (length ws)) as [|i l IH]; [cbn; lia|]. rewrite zsum_cons. cbv beta. pose proof (Z.mul_nonneg_nonneg _ _ (cnt_nonneg counts i) (occ_nonneg p (nth i ws []))). lia.
Qed.

Lemma finv_step tr counts w0 len U M st top q st' ta tb t r wtu :
  ginv counts w0 st -> finv tr counts len U M st -> Permutation (ts_queue st) (top :: q) ->
  entry_ok (length (v_words (ts_voc st))) (ts_pc st) (ts_words st) top ->
  merge_step tr counts top q st st' ta tb t r wtu -> ~ In r U ->
  finv tr counts (set_len len r (len (fst (tm_pair top)) + len (snd (tm_pair top)))) (r :: U) (tm_pair top :: M) st'.
Proof.
  intros G [A B C D E F Gn H I J] PQ EO MS NR. pose proof (eo_pos _ _ _ _ EO) as EP. pose proof (eo_nodup _ _ _ _ EO) as ED.
  assert (IT : In top (ts_queue st)) by (eapply Permutation_in; [symmetry; exact PQ|left; reflexivity]).
  assert (IQ : forall e, In e q -> In e (ts_queue st)) by (intros e He; eapply Permutation_in; [symmetry; exact PQ|right; exact He]).
  pose proof (ms_words _ _ _ _ _ _ _ _ _ _ _ MS) as RW. set (c1 := fst (tm_pair top)) in *. set (c2 := snd (tm_pair top)) in *.
  destruct (B _ (eo_key _ _ _ _ EO)) as [U1 U2]. fold c1 in U1. fold c2 in U2.
  assert (N1 : r <> c1) by (intros ->; contradiction). assert (N2 : r <> c2) by (intros ->; contradiction).
  set (len' := set_len len r (len c1 + len c2)). assert (LR : len' r = len c1 + len c2) by apply set_len_same.
  assert (LU : forall x, In x U -> len' x = len x) by (intros x Hx; apply set_len_other; intros ->; contradiction).
  pose proof (J c1 U1) as J1. pose proof (J c2 U2) as J2.
  set (words := ts_words st) in *. set (words' := ts_words st') in *.
  assert (NW : forall i, nth i words' [] = if existsb (Nat.eqb i) (tm_pos top) then replace c1 c2 r (nth i words []) else nth i words []) by (intros i; apply replaced_nth; exact RW).
  assert (EX : forall i, existsb (Nat.eqb i) (tm_pos top) = true <-> In i (tm_pos top)).
  { intros i. rewrite existsb_exists. split; [intros (x & Hx & E'); apply Nat.eqb_eq in E'; subst; exact Hx|intros Hi; exists i; split; [exact Hi|apply Nat.eqb_refl]]. }
  assert (SW : forall i s, In s (nth i words []) -> In (fst s) U /\ snd s = len (fst s)).
  { intros i s Hs. destruct (Nat.ltb_spec i (length words)) as [L|L]; [apply (A (nth i words [])); [apply nth_In; exact L|exact Hs]|]. rewrite nth_overflow in Hs by exact L. destruct Hs. }
  assert (F0 : forall i, Forall (fun s => snd s = len' (fst s)) (nth i words [])).
  { intros i. apply Forall_forall. intros s Hs. destruct (SW i s Hs) as [S1 S2]. rewrite LU by exact S1. exact S2. }
  (* changes of the counts *)
  set (chs := flat_map (word_changes c1 c2 r (tr_max_length tr) words) (tm_pos top)).
  assert (PN : forall p, p <> (c1, c2) -> (fst p = r \/ snd p = r -> allowed (tr_max_length tr) len' p) ->
     (forall i, net_changes p (snd (word_merge c1 c2 r (tr_max_length tr) None (nth i words []))) = (occ p (replace c1 c2 r (nth i words [])) - occ p (nth i words []))%Z) \/
     (fst p = r /\ ~ In (snd p) (r :: U)) \/ (snd p = r /\ ~ In (fst p) (r :: U))).
  { intros p NP AL. destruct (in_dec N.eq_dec (fst p) (r :: U)) as [I1|I1]; destruct (in_dec N.eq_dec (snd p) (r :: U)) as [I2|I2].
    - left. intros i. apply (word_merge_net c1 c2 r (tr_max_length tr) len' p NP) with (n := length (nth i words [])) (prev := None); [|lia|exact (F0 i)|].
      + intros HR. destruct (AL HR) as [[L1 L2]|X]; [|exact X]. exfalso. destruct HR as [HR|HR]; rewrite HR in *; lia.
      + intros _ _. rewrite LR, (LU c1), (LU c2) by assumption. reflexivity.
    - destruct I1 as [I1|I1]; [right; left; auto|]. left. intros i. apply (word_merge_net c1 c2 r (tr_max_length tr) len' p NP) with (n := length (nth i words [])) (prev := None); [|lia|exact (F0 i)|].
      + intros [HR|HR]; [rewrite HR in I1; contradiction|]. exfalso. apply I2. rewrite HR. left. reflexivity.
      + intros _ _. rewrite LR, (LU c1), (LU c2) by assumption. reflexivity.
    - destruct I2 as [I2|I2]; [right; right; auto|]. left. intros i. apply (word_merge_net c1 c2 r (tr_max_length tr) len' p NP) with (n := length (nth i words [])) (prev := None); [|lia|exact (F0 i)|].
      + intros [HR|HR]; [|rewrite HR in I2; contradiction]. exfalso. apply I1. rewrite HR. left. reflexivity.
      + intros _ _. rewrite LR, (LU c1), (LU c2) by assumption. reflexivity.
    - left. intros i. apply (word_merge_net c1 c2 r (tr_max_length tr) len' p NP) with (n := length (nth i words [])) (prev := None); [|lia|exact (F0 i)|].
      + intros [HR|HR]; exfalso; [apply I1|apply I2]; rewrite HR; left; reflexivity.
      + intros _ _. rewrite LR, (LU c1), (LU c2) by assumption. reflexivity. }
  assert (SY' : forall w s, In w words' -> In s w -> In (fst s) (r :: U) /\ snd s = len' (fst s)).
  { intros w s Hw Hs. destruct (replaced_words _ _ _ _ _ _ _ RW Hw) as [H'|(w1 & H' & ->)].
    - destruct (A w s H' Hs) as [S1 S2]. split; [right; exact S1|rewrite LU by exact S1; exact S2].
    - apply (replace_in _ _ _ _ _ _ (le_n _)) in Hs. destruct Hs as [Hs|(H1 & x & y & H2 & H3 & H4 & H5 & H6)].
      + destruct (A w1 s H' Hs) as [S1 S2]. split; [right; exact S1|rewrite LU by exact S1; exact S2].
      + rewrite H1. split; [left; reflexivity|]. rewrite LR, H6. destruct (A w1 x H' H2) as [_ X2]. destruct (A w1 y H' H3) as [_ Y2]. rewrite X2, Y2, H4, H5. reflexivity. }
  assert (SW' : forall i s, In s (nth i words' []) -> In (fst s) (r :: U)).
  { intros i s Hs. destruct (Nat.ltb_spec i (length words')) as [L|L]; [apply (SY' (nth i words' [])); [apply nth_In; exact L|exact Hs]|]. rewrite nth_overflow in Hs by exact L. destruct Hs. }
  assert (IC : forall p d i, In ((p, d), i) chs -> In i (tm_pos top) /\ In (p, d) (snd (word_merge c1 c2 r (tr_max_length tr) None (nth i words [])))).
  { intros p d i HI. apply in_flat_map in HI. destruct HI as (j & Hj & HI). apply in_map_iff in HI. destruct HI as (c & E' & HI). injection E' as -> <-. auto. }
  assert (CI : forall p d i, In i (tm_pos top) -> In (p, d) (snd (word_merge c1 c2 r (tr_max_length tr) None (nth i words []))) -> In ((p, d), i) chs).
  { intros p d i Hi HI. apply in_flat_map. exists i. split; [exact Hi|]. apply in_map_iff. exists (p, d). auto. }
  assert (CU : forall p d i, In ((p, d), i) chs -> In (fst p) (r :: U) /\ In (snd p) (r :: U) /\ (d = 1%Z -> fst p = r \/ snd p = r)).
  { intros p d i HI. apply IC in HI. destruct HI as [_ HI]. destruct (word_merge_changes_in _ _ _ _ _ _ _ (le_n _) _ _ HI) as (_ & X & Y & Z).
    assert (K : forall x, x = r \/ of_word (nth i words []) x \/ (exists s, @None (N * nat) = Some s /\ x = fst s) -> In x (r :: U)).
    { intros x [->|[X'|(s & X' & _)]]; [left; reflexivity| |discriminate]. right. apply in_map_iff in X'. destruct X' as (s & <- & X'). apply (SW i s X'). }
    auto. }
  assert (NM : forall p, fst p = r \/ snd p = r -> ~ In p M).
  { intros p HR HM. destruct (E p HM) as [E1 E2]. destruct HR as [HR|HR]; rewrite HR in *; contradiction. }
  assert (NT : forall p, fst p = r \/ snd p = r -> p <> tm_pair top).
  { intros p HR ->. fold c1 c2 in HR. destruct HR; congruence. }
  assert (W0 : forall p, fst p = r \/ snd p = r -> wsum (occ p) counts words = 0%Z /\ forall i, occ p (nth i words []) = 0%Z).
  { intros p HR. assert (Z0 : forall i, occ p (nth i words []) = 0%Z).
    { intros i. apply (occ_absent p _ U); [intros s Hs; apply (SW i s Hs)|]. destruct HR as [HR|HR]; rewrite HR; auto. }
    split; [|exact Z0]. apply wsum_zero. intros w Hw. apply In_nth with (d := []) in Hw. destruct Hw as (i & _ & <-). apply Z0. }
  assert (ET : tm_pair top = (c1, c2)) by (unfold c1, c2; destruct (tm_pair top); reflexivity).
  (* exact counts *)
  assert (PC : forall p, ~ In p (tm_pair top :: M) -> allowed (tr_max_length tr) len' p -> pair_count (ts_pc st') p = wsum (occ p) counts words').
  { intros p NP AL. rewrite (ms_pc _ _ _ _ _ _ _ _ _ _ _ MS). fold c1 c2 words chs.
    assert (NP1 : p <> (c1, c2)) by (rewrite <- ET; intros ->; apply NP; left; reflexivity). assert (NP2 : ~ In p M) by (intros X; apply NP; right; exact X).
    assert (OLD : pair_count (ts_pc st) p = wsum (occ p) counts words).
    { destruct (N.eq_dec (fst p) r) as [R1|R1]; [|destruct (N.eq_dec (snd p) r) as [R2|R2]].
      - rewrite (proj1 (W0 p (or_introl R1))). unfold pair_count. destruct (aget pair_eqb p (ts_pc st)) as [k|] eqn:K; [|reflexivity]. apply (aget_In _ pair_eqb_eq) in K. apply (in_map fst) in K. apply B in K. destruct K as [K _]. cbn [fst] in K. rewrite R1 in K. contradiction.
      - rewrite (proj1 (W0 p (or_intror R2))). unfold pair_count. destruct (aget pair_eqb p (ts_pc st)) as [k|] eqn:K; [|reflexivity]. apply (aget_In _ pair_eqb_eq) in K. apply (in_map fst) in K. apply B in K. destruct K as [_ K]. cbn [fst] in K. rewrite R2 in K. contradiction.
      - apply C; [exact NP2|]. apply (allowed_other _ len r (len c1 + len c2)); assumption. }
    rewrite OLD. rewrite (wsum_replaced (occ p) counts c1 c2 r (tm_pos top) words _ ED EP RW). f_equal. unfold chs. rewrite net_flat. apply zsum_ext. intros i Hi. rewrite net_word_changes.
    destruct (PN p NP1) as [PN'|PN']; [intros _; exact AL|rewrite PN'; reflexivity|].
    assert (Z1 : net_changes p (snd (word_merge c1 c2 r (tr_max_length tr) None (nth i words []))) = 0%Z).
    { assert (AB : forall d, ~ In (p, d) (snd (word_merge c1 c2 r (tr_max_length tr) None (nth i words [])))).
      { intros d HI. apply (CI p d i Hi) in HI. apply CU in HI. destruct PN' as [[_ X]|[_ X]]; tauto. }
      induction (snd (word_merge c1 c2 r (tr_max_length tr) None (nth i words []))) as [|[p' d] ch IH]; [reflexivity|].
      change (net_changes p ((p', d) :: ch)) with ((if pair_eqb p p' then d else 0) + net_changes p ch)%Z. rewrite IH by (intros d' HI; apply (AB d'); right; exact HI).
      destruct (pair_eqb p p') eqn:E'; [|reflexivity]. apply pair_eqb_eq in E'. subst p'. exfalso. apply (AB d). left. reflexivity. }
    rewrite Z1. assert (O1 : occ p (nth i words' []) = 0%Z) by (apply (occ_absent p _ (r :: U)); [intros s Hs; exact (SW' i s Hs)|destruct PN' as [[_ X]|[_ X]]; auto]).
    rewrite NW, (proj2 (EX i) Hi) in O1. rewrite O1. destruct PN' as [[X _]|[X _]]; rewrite (proj2 (W0 p ltac:(auto)) i); lia. }
  (* occurrences never grow, but for pairs with the result *)
  assert (OL : forall p, fst p <> r -> snd p <> r -> forall i, (occ p (nth i words' []) <= occ p (nth i words []))%Z).
  { intros p X Y i. rewrite NW. destruct (existsb _ _); [|lia]. exact (occ_replace_le p c1 c2 r X Y _ (nth i words []) None (le_n _)). }
  assert (WL : forall p, fst p <> r -> snd p <> r -> (wsum (occ p) counts words' <= wsum (occ p) counts words)%Z).
  { intros p X Y. apply wsum_le; [exact (proj1 RW)|]. intros i _. apply OL; assumption. }
  assert (QU : forall e, In e q -> fst (tm_pair e) <> r /\ snd (tm_pair e) <> r).
  { intros e He. assert (K : In (tm_pair e) (map fst (ts_pc st))) by (apply (g_queue _ _ _ G); auto). apply B in K. split; intros X; rewrite X in K; tauto. }
  (* the words where a pair with the result occurs *)
  assert (NI : forall p i, fst p = r \/ snd p = r -> allowed (tr_max_length tr) len' p -> (0 < occ p (nth i words' []))%Z -> In ((p, 1%Z), i) chs).
  { intros p i HR AL HO. assert (HI : In i (tm_pos top)).
    { destruct (in_dec Nat.eq_dec i (tm_pos top)) as [X|X]; [exact X|]. rewrite NW in HO. destruct (existsb (Nat.eqb i) (tm_pos top)) eqn:E'; [apply EX in E'; contradiction|]. rewrite (proj2 (W0 p HR)) in HO. lia. }
    apply CI; [exact HI|]. apply net_changes_pos.
    - intros p' d HI'. apply (word_merge_changes_in _ _ _ _ _ _ _ (le_n _) _ _ HI').
    - assert (O0 := proj2 (W0 p HR) i). rewrite NW, (proj2 (EX i) HI) in HO.
      destruct (PN p) as [PN'|PN'].
      + rewrite <- ET. apply NT. exact HR.
      + intros _. exact AL.
      + rewrite PN'. lia.
      + exfalso. assert (O1 : occ p (nth i words' []) = 0%Z) by (apply (occ_absent p _ (r :: U)); [intros s Hs; exact (SW' i s Hs)|destruct PN' as [[_ X]|[_ X]]; auto]). rewrite NW, (proj2 (EX i) HI) in O1. lia. }
  (* new entries *)
  assert (NE : forall e, In e (new_entries (ts_pc st') wtu) -> (fst (tm_pair e) = r \/ snd (tm_pair e) = r) /\ allowed (tr_max_length tr) len' (tm_pair e) /\
     tm_count e = pair_count (ts_pc st') (tm_pair e) /\ aget pair_eqb (tm_pair e) wtu = Some (tm_pos e)).
  { intros e He. apply new_entries_in in He. destruct He as (X1 & X2 & X3).
    assert (GT : aget pair_eqb (tm_pair e) wtu = Some (tm_pos e)) by (apply In_aget; [apply pair_eqb_eq|apply (ms_sets _ _ _ _ _ _ _ _ _ _ _ MS)|exact X3]).
    apply (in_map fst) in X3. cbn [fst] in X3. apply (ms_wkeys _ _ _ _ _ _ _ _ _ _ _ MS) in X3. destruct X3 as (i & X3). fold c1 c2 words chs in X3.
    split; [apply (CU _ _ _ X3); reflexivity|]. split; [|auto]. right. apply IC in X3. destruct X3 as [_ X3].
    apply (word_merge_new_below c1 c2 r (tr_max_length tr) len' _ (nth i words []) None (le_n _)); [exact (F0 i)| |exact X3].
    intros _ _. rewrite LR, (LU c1), (LU c2) by assumption. reflexivity. }
  constructor.
  - exact SY'.
  - intros p Hp. apply (ms_keys _ _ _ _ _ _ _ _ _ _ _ MS) in Hp. destruct Hp as [Hp|Hp]; [destruct (B p Hp); split; right; assumption|].
    apply in_map_iff in Hp. destruct Hp as ([[p' d] i] & E' & Hp). cbn in E'. subst p'. fold c1 c2 words chs in Hp. apply CU in Hp. tauto.
  - exact PC.
  - intros p w HP Hw. apply In_nth with (d := []) in Hw. destruct Hw as (i & Li & <-). fold words' in Li |- *. destruct HP as [<-|HP].
    + rewrite NW. destruct (existsb (Nat.eqb i) (tm_pos top)) eqn:E'.
      * rewrite ET. apply (occ_replace_zero c1 c2 r N1 N2 _ _ (le_n _)).
      * pose proof (occ_nonneg (tm_pair top) (nth i words [])) as X. destruct (Z.eq_dec (occ (tm_pair top) (nth i words [])) 0) as [Y|Y]; [exact Y|].
        assert (In i (tm_pos top)) by (apply I; [exact IT|unfold words in *; lia]). apply EX in H0. congruence.
    + destruct (E p HP) as [E1 E2]. assert (X1 : fst p <> r) by (intros X; rewrite X in E1; contradiction). assert (X2 : snd p <> r) by (intros X; rewrite X in E2; contradiction).
      pose proof (OL p X1 X2 i) as X. pose proof (occ_nonneg p (nth i words' [])). destruct (Nat.ltb_spec i (length words)) as [L|L]; [|unfold words, words' in *; rewrite (proj1 RW) in Li; lia].
      rewrite (D p (nth i words []) HP) in X by (apply nth_In; exact L). lia.
  - intros p [<-|HP]; [split; right; assumption|]. destruct (E p HP). split; right; assumption.
  - intros e He. rewrite (ms_queue _ _ _ _ _ _ _ _ _ _ _ MS) in He. apply in_app_or in He. destruct He as [He|He].
    + destruct (F e (IQ e He)) as (F1 & F2 & F3). destruct (QU e He) as [Q1 Q2]. split; [|split].
      * intros [X|X]; [|contradiction]. apply (Permutation_map tm_pair) in PQ. pose proof (Permutation_NoDup PQ Gn) as ND. cbn [map] in ND. apply NoDup_cons_iff in ND. apply (proj1 ND). rewrite X. apply in_map. exact He.
      * apply allowed_other; assumption.
      * pose proof (WL _ Q1 Q2). fold words in F3. fold words'. lia.
    + destruct (NE e He) as (X1 & X2 & X3 & X4). assert (NP : ~ In (tm_pair e) (tm_pair top :: M)) by (intros [X|X]; [exact (NT _ X1 (eq_sym X))|exact (NM _ X1 X)]).
      split; [exact NP|]. split; [exact X2|]. rewrite X3, (PC _ NP X2). fold words'. lia.
  - rewrite (ms_queue _ _ _ _ _ _ _ _ _ _ _ MS), map_app. apply (Permutation_map tm_pair) in PQ. pose proof (Permutation_NoDup PQ Gn) as ND. cbn [map] in ND. apply NoDup_cons_iff in ND. destruct ND as [_ ND].
    apply NoDup_app_intro; [exact ND|apply new_entries_nodup, (ms_sets _ _ _ _ _ _ _ _ _ _ _ MS)|].
    intros p HP1 HP2. apply in_map_iff in HP1, HP2. destruct HP1 as (e1 & Y1 & HP1), HP2 as (e2 & Y2 & HP2). destruct (QU e1 HP1) as [Q1 Q2]. destruct (NE e2 HP2) as [X _]. rewrite Y2, <- Y1 in X. destruct X; contradiction.
  - intros p NP AL HW. fold words' in HW. rewrite (ms_queue _ _ _ _ _ _ _ _ _ _ _ MS).
    assert (DEC : (fst p = r \/ snd p = r) \/ (fst p <> r /\ snd p <> r)) by (destruct (N.eq_dec (fst p) r); [auto|]; destruct (N.eq_dec (snd p) r); auto).
    destruct DEC as [HR|[R1 R2]].
    + destruct (wsum_pos (occ p) counts words' (occ_nonneg p) HW) as (i & _ & _ & HO). pose proof (NI p i HR AL HO) as HI.
      assert (K : In p (map fst wtu)) by (apply (ms_wkeys _ _ _ _ _ _ _ _ _ _ _ MS); exists i; exact HI). apply in_map_iff in K. destruct K as ([p' l] & K1 & K2). cbn in K1. subst p'.
      exists (mkTm p (pair_count (ts_pc st') p) l). split; [|reflexivity]. apply in_or_app. right. apply new_entries_in. cbn [tm_pair tm_count tm_pos]. rewrite (PC p NP AL). auto.
    + assert (NP2 : ~ In p M) by (intros X; apply NP; right; exact X). destruct (H p NP2) as (e & He & Ep).
      * apply (allowed_other _ len r (len c1 + len c2)); assumption.
      * pose proof (WL p R1 R2). fold words. lia.
      * exists e. split; [|exact Ep]. apply in_or_app. left. eapply Permutation_in in He; [|exact PQ]. destruct He as [->|He]; [|exact He]. exfalso. apply NP. left. exact Ep.
  - intros e i He HO. fold words' in HO. rewrite (ms_queue _ _ _ _ _ _ _ _ _ _ _ MS) in He. apply in_app_or in He. destruct He as [He|He].
    + destruct (QU e He) as [Q1 Q2]. apply I; [apply IQ; exact He|]. pose proof (OL _ Q1 Q2 i). fold words. lia.
    + destruct (NE e He) as (X1 & X2 & X3 & X4). pose proof (NI _ i X1 X2 HO) as HI. apply (ms_at _ _ _ _ _ _ _ _ _ _ _ MS) in HI. destruct HI as (l & Y1 & Y2). rewrite X4 in Y1. injection Y1 as <-. exact Y2.
  - intros x [<-|Hx]; [fold len'; rewrite LR; lia|]. fold len'. rewrite LU by exact Hx. apply J. exact Hx.
Qed.
