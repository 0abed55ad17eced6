(** Proofs about training: tables of pairs, merging one word, merging all words. *)
From Verif Require Import Base ListFacts AMap EncodingModel BpeWordModel BpeModel BpeTrainModel BpeTrainSpec BpeTrainProofs.
From Coq Require Import ZArith.

(** ** One word *)
Lemma word_merge_replace c1 c2 r mx : forall n w prev, length w <= n -> fst (word_merge c1 c2 r mx prev w) = replace c1 c2 r w.
Proof.
  induction n as [|n IH]; intros w prev L; [destruct w; [reflexivity|cbn in L; lia]|].
  destruct w as [|[a la] w1]; [reflexivity|]. cbn [word_merge replace].
  destruct w1 as [|[b lb] w2]; [reflexivity|]. cbn [length] in L. cbn [fst snd].
  destruct (N.eqb a c1 && N.eqb b c2).
  - specialize (IH w2 (Some (r, la + lb)) ltac:(lia)). destruct (word_merge c1 c2 r mx (Some (r, la + lb)) w2) as [w' ch]. cbn [fst] in *. rewrite IH. reflexivity.
  - specialize (IH ((b, lb) :: w2) (Some (a, la)) ltac:(cbn [length]; lia)). destruct (word_merge c1 c2 r mx (Some (a, la)) ((b, lb) :: w2)) as [w' ch]. cbn [fst] in *. rewrite IH. reflexivity.
Qed.

Lemma word_merge_changes_len c1 c2 r mx : forall n w prev, length w <= n ->
  length (snd (word_merge c1 c2 r mx prev w)) + 4 * length (replace c1 c2 r w) <= 4 * length w.
Proof.
  induction n as [|n IH]; intros w prev L; [destruct w; [cbn; lia|cbn in L; lia]|].
  destruct w as [|[a la] w1]; [cbn; lia|]. cbn [word_merge replace].
  destruct w1 as [|[b lb] w2]; [cbn; lia|]. cbn [length] in L. cbn [fst snd].
  destruct (N.eqb a c1 && N.eqb b c2).
  - specialize (IH w2 (Some (r, la + lb)) ltac:(lia)). destruct (word_merge c1 c2 r mx (Some (r, la + lb)) w2) as [w' ch]. cbn [snd length] in *. rewrite !app_length.
    assert (length (match prev with Some (p, lp) => ((p, a), (-1)%Z) :: (if below mx (lp + (la + lb)) then [((p, r), 1%Z)] else []) | None => [] end) <= 2).
    { destruct prev as [[p lp]|]; [destruct (below mx _)|]; cbn; lia. }
    assert (length (match w2 with (n0, ln) :: _ => ((b, n0), (-1)%Z) :: (if below mx (ln + (la + lb)) then [((r, n0), 1%Z)] else []) | [] => [] end) <= 2).
    { destruct w2 as [|[p lp] ?]; [|destruct (below mx _)]; cbn; lia. }
    lia.
  - specialize (IH ((b, lb) :: w2) (Some (a, la)) ltac:(cbn [length]; lia)). destruct (word_merge c1 c2 r mx (Some (a, la)) ((b, lb) :: w2)) as [w' ch]. cbn [snd length] in *. lia.
Qed.

(** How many pairs are new, for the number of queue entries. *)
Definition is_new (c : (N * N) * Z) : bool := Z.ltb 0 (snd c).

Lemma word_merge_new_len c1 c2 r mx : forall n w prev, length w <= n ->
  length (filter is_new (snd (word_merge c1 c2 r mx prev w))) + 2 * length (replace c1 c2 r w) <= 2 * length w.
Proof.
  induction n as [|n IH]; intros w prev L; [destruct w; [cbn; lia|cbn in L; lia]|].
  destruct w as [|[a la] w1]; [cbn; lia|]. cbn [word_merge replace].
  destruct w1 as [|[b lb] w2]; [cbn; lia|]. cbn [length] in L. cbn [fst snd].
  destruct (N.eqb a c1 && N.eqb b c2).
  - specialize (IH w2 (Some (r, la + lb)) ltac:(lia)). destruct (word_merge c1 c2 r mx (Some (r, la + lb)) w2) as [w' ch]. cbn [snd length] in *. rewrite !filter_app, !app_length.
    assert (length (filter is_new (match prev with Some (p, lp) => ((p, a), (-1)%Z) :: (if below mx (lp + (la + lb)) then [((p, r), 1%Z)] else []) | None => [] end)) <= 1).
    { destruct prev as [[p lp]|]; [destruct (below mx _)|]; cbn; lia. }
    assert (length (filter is_new (match w2 with (n0, ln) :: _ => ((b, n0), (-1)%Z) :: (if below mx (ln + (la + lb)) then [((r, n0), 1%Z)] else []) | [] => [] end)) <= 1).
    { destruct w2 as [|[p lp] ?]; [|destruct (below mx _)]; cbn; lia. }
    lia.
  - specialize (IH ((b, lb) :: w2) (Some (a, la)) ltac:(cbn [length]; lia)). destruct (word_merge c1 c2 r mx (Some (a, la)) ((b, lb) :: w2)) as [w' ch]. cbn [snd length] in *. lia.
Qed.

Definition of_word (w : list (N * nat)) (x : N) : Prop := In x (map fst w).

(** What the changes are about. *)
Lemma word_merge_changes_in c1 c2 r mx : forall n w prev, length w <= n ->
  forall p d, In (p, d) (snd (word_merge c1 c2 r mx prev w)) ->
  let here x := x = r \/ of_word w x \/ (exists s, prev = Some s /\ x = fst s) in
  (d = 1%Z \/ d = (-1)%Z) /\ here (fst p) /\ here (snd p) /\ (d = 1%Z -> fst p = r \/ snd p = r).
Proof.
  induction n as [|n IH]; intros w prev L p d; [destruct w; [intros []|cbn in L; lia]|].
  destruct w as [|[a la] w1]; [intros []|]. cbn [word_merge].
  destruct w1 as [|[b lb] w2]; [intros []|]. cbn [length] in L.
  destruct (N.eqb a c1 && N.eqb b c2).
  - specialize (IH w2 (Some (r, la + lb)) ltac:(lia) p d). destruct (word_merge c1 c2 r mx (Some (r, la + lb)) w2) as [w' ch]. cbn [snd] in *. rewrite !in_app_iff. cbn zeta in *.
    unfold of_word in *. cbn [map fst In]. intros [H|[H|H]].
    + destruct prev as [[q lq]|]; [|destruct H]. destruct H as [H|H].
      * injection H as <- <-. cbn. split; [auto|]. split; [right; right; exists (q, lq); auto|]. split; [auto|discriminate].
      * destruct (below mx _); [|destruct H]. destruct H as [H|[]]. injection H as <- <-. cbn. split; [auto|]. split; [right; right; exists (q, lq); auto|]. auto.
    + destruct w2 as [|[q lq] w3]; [destruct H|]. destruct H as [H|H].
      * injection H as <- <-. cbn. split; [auto|]. split; [auto 8|]. split; [auto 8|discriminate].
      * destruct (below mx _); [|destruct H]. destruct H as [H|[]]. injection H as <- <-. cbn. auto 9.
    + destruct (IH H) as (H1 & H2 & H3 & H4). split; [exact H1|].
      split; [destruct H2 as [H2|[H2|(s & E & H2)]]; [auto|auto|injection E as <-; auto]|].
      split; [destruct H3 as [H3|[H3|(s & E & H3)]]; [auto|auto|injection E as <-; auto]|exact H4].
  - specialize (IH ((b, lb) :: w2) (Some (a, la)) ltac:(cbn [length]; lia) p d). destruct (word_merge c1 c2 r mx (Some (a, la)) ((b, lb) :: w2)) as [w' ch]. cbn [snd] in *. cbn zeta in *.
    unfold of_word in *. cbn [map fst In] in *. intros H. destruct (IH H) as (H1 & H2 & H3 & H4). split; [exact H1|].
    split; [destruct H2 as [H2|[H2|(s & E & H2)]]; [auto|tauto|injection E as <-; cbn in H2; auto]|].
    split; [destruct H3 as [H3|[H3|(s & E & H3)]]; [auto|tauto|injection E as <-; cbn in H3; auto]|exact H4].
Qed.

Definition hit (p : N * N) (x y : N * nat) : Z := if N.eqb (fst x) (fst p) && N.eqb (snd p) (fst y) then 1%Z else 0%Z.
Definition occ (p : N * N) (w : list (N * nat)) : Z := Z.of_N (adjacent (fst p) (snd p) w).

Lemma occ_cons2 p x y w : occ p (x :: y :: w) = (hit p x y + occ p (y :: w))%Z.
Proof.
  unfold occ, hit. change (adjacent (fst p) (snd p) (x :: y :: w)) with ((if N.eqb (fst x) (fst p) && N.eqb (fst y) (snd p) then 1 else 0) + adjacent (fst p) (snd p) (y :: w))%N.
  rewrite (N.eqb_sym (fst y) (snd p)). destruct (N.eqb (fst x) (fst p) && N.eqb (snd p) (fst y)); lia.
Qed.
Lemma occ_one p x : occ p [x] = 0%Z.
Proof. reflexivity. Qed.

Lemma occ_nonneg p w : (0 <= occ p w)%Z.
Proof. unfold occ. lia. Qed.

Definition net_changes (p : N * N) (ch : list ((N * N) * Z)) : Z :=
  fold_right (fun c acc => ((if pair_eqb p (fst c) then snd c else 0) + acc)%Z) 0%Z ch.

Lemma net_app p a b : net_changes p (a ++ b) = (net_changes p a + net_changes p b)%Z.
Proof. induction a as [|c a IH]; [reflexivity|]. unfold net_changes in *. cbn [app fold_right]. rewrite IH. lia. Qed.

Lemma net_single p q d : net_changes p [(q, d)] = if pair_eqb p q then d else 0%Z.
Proof. cbn. lia. Qed.

Lemma hit_eq p x y : hit p x y = if pair_eqb p (fst x, fst y) then 1%Z else 0%Z.
Proof. unfold hit, pair_eqb. cbn [fst snd]. rewrite (N.eqb_sym (fst p)). reflexivity. Qed.

Definition pv (prev : option (N * nat)) : list (N * nat) := match prev with Some x => [x] | None => [] end.

(** The changes of one word sum up to the change in the number of places. *)
Lemma word_merge_net c1 c2 r mx (len : N -> nat) p :
  p <> (c1, c2) -> (fst p = r \/ snd p = r -> below mx (len (fst p) + len (snd p)) = true) ->
  forall n w prev, length w <= n ->
  Forall (fun s => snd s = len (fst s)) (pv prev ++ w) -> (In c1 (map fst w) -> In c2 (map fst w) -> len r = len c1 + len c2) ->
  net_changes p (snd (word_merge c1 c2 r mx prev w)) = (occ p (pv prev ++ replace c1 c2 r w) - occ p (pv prev ++ w))%Z.
Proof.
  intros NP OK. induction n as [|n IH]; intros w prev L F LR; [destruct w; [change (0 = occ p (pv prev ++ []) - occ p (pv prev ++ []))%Z; lia|cbn in L; lia]|].
  destruct w as [|[a la] w1]; [change (0 = occ p (pv prev ++ []) - occ p (pv prev ++ []))%Z; lia|]. cbn [word_merge replace].
  destruct w1 as [|[b lb] w2]; [change (0 = occ p (pv prev ++ [(a, la)]) - occ p (pv prev ++ [(a, la)]))%Z; lia|]. cbn [length] in L. cbn [fst snd].
  apply Forall_app in F. destruct F as [Fp F]. pose proof (Forall_inv F) as Fa. pose proof (Forall_inv_tail F) as F1. pose proof (Forall_inv F1) as Fb. pose proof (Forall_inv_tail F1) as F2. cbn [fst snd] in Fa, Fb.
  destruct (N.eqb a c1 && N.eqb b c2) eqn:M.
  - apply andb_prop in M. destruct M as [Ma Mb]. apply N.eqb_eq in Ma, Mb. subst a b.
    assert (LR' : len r = la + lb) by (rewrite LR; cbn [map fst In]; auto; lia).
    specialize (IH w2 (Some (r, la + lb)) ltac:(lia)). destruct (word_merge c1 c2 r mx (Some (r, la + lb)) w2) as [w' ch]. cbn [snd] in *.
    rewrite !net_app, IH; [|constructor; [cbn; lia|exact F2]|intros _ _; lia]. cbn [pv app].
    assert (B : net_changes p (match prev with Some (q, lq) => ((q, c1), (-1)%Z) :: (if below mx (lq + (la + lb)) then [((q, r), 1%Z)] else []) | None => [] end) =
      (occ p (pv prev ++ (r, (la + lb)%nat) :: replace c1 c2 r w2) - occ p ((r, (la + lb)%nat) :: replace c1 c2 r w2) - (occ p (pv prev ++ (c1, la) :: (c2, lb) :: w2) - occ p ((c1, la) :: (c2, lb) :: w2)))%Z).
    { destruct prev as [[q lq]|]; cbn [pv app]; [|cbn [net_changes fold_right]; lia]. pose proof (Forall_inv Fp) as Fq. cbn [fst snd] in Fq.
      change (((q, c1), (-1)%Z) :: (if below mx (lq + (la + lb)) then [((q, r), 1%Z)] else [])) with ([((q, c1), (-1)%Z)] ++ (if below mx (lq + (la + lb)) then [((q, r), 1%Z)] else [])).
      rewrite net_app, net_single, !occ_cons2, !hit_eq. cbn [fst].
      assert (X : net_changes p (if below mx (lq + (la + lb)) then [((q, r), 1%Z)] else []) = if pair_eqb p (q, r) then 1%Z else 0%Z).
      { destruct (pair_eqb p (q, r)) eqn:E.
        - apply pair_eqb_eq in E. subst p. cbn [fst snd] in OK. rewrite LR', <- Fq in OK. rewrite OK by auto. cbv iota. rewrite net_single.
          replace (pair_eqb (q, r) (q, r)) with true by (symmetry; apply pair_eqb_eq; reflexivity). reflexivity.
        - destruct (below mx (lq + (la + lb))); [rewrite net_single, E; reflexivity|reflexivity]. }
      rewrite X. destruct (pair_eqb p (q, c1)), (pair_eqb p (q, r)), (pair_eqb p (c1, c2)); lia. }
    rewrite B. rewrite (occ_cons2 p (c1, la)), hit_eq. cbn [fst].
    replace (pair_eqb p (c1, c2)) with false by (symmetry; destruct (pair_eqb p (c1, c2)) eqn:E; [apply pair_eqb_eq in E; contradiction|reflexivity]).
    destruct w2 as [|[q lq] w3]; [rewrite !occ_one; cbn [net_changes fold_right]; lia|]. pose proof (Forall_inv F2) as Fq. cbn [fst snd] in Fq.
    change (((c2, q), (-1)%Z) :: (if below mx (lq + (la + lb)) then [((r, q), 1%Z)] else [])) with ([((c2, q), (-1)%Z)] ++ (if below mx (lq + (la + lb)) then [((r, q), 1%Z)] else [])).
    rewrite net_app, net_single, (occ_cons2 p (r, la + lb) (q, lq)), (occ_cons2 p (c2, lb)), !hit_eq. cbn [fst].
    assert (X : net_changes p (if below mx (lq + (la + lb)) then [((r, q), 1%Z)] else []) = if pair_eqb p (r, q) then 1%Z else 0%Z).
    { destruct (pair_eqb p (r, q)) eqn:E.
      - apply pair_eqb_eq in E. subst p. cbn [fst snd] in OK. rewrite LR', <- Fq in OK. rewrite Nat.add_comm in OK. rewrite OK by auto. cbv iota. rewrite net_single.
        replace (pair_eqb (r, q) (r, q)) with true by (symmetry; apply pair_eqb_eq; reflexivity). reflexivity.
      - destruct (below mx (lq + (la + lb))); [rewrite net_single, E; reflexivity|reflexivity]. }
    rewrite X. destruct (pair_eqb p (c2, q)), (pair_eqb p (r, q)); lia.
  - specialize (IH ((b, lb) :: w2) (Some (a, la)) ltac:(cbn [length]; lia)). destruct (word_merge c1 c2 r mx (Some (a, la)) ((b, lb) :: w2)) as [w' ch]. cbn [snd] in *.
    rewrite IH; [|constructor; [exact Fa|exact F1]|].
    2: { intros H1 H2. apply LR; right; assumption. }
    cbn [pv app]. destruct prev as [[q lq]|]; cbn [pv app]; [|reflexivity]. rewrite !(occ_cons2 p (q, lq) (a, la)). lia.
Qed.

Lemma flat_map_ext_in {A B} (f g : A -> list B) l : (forall a, In a l -> f a = g a) -> flat_map f l = flat_map g l.
Proof. induction l as [|a l IH]; intros H; [reflexivity|]. cbn. rewrite H by (left; reflexivity). f_equal. apply IH. intros b Hb. apply H. right. exact Hb. Qed.
Lemma nth_nth_error {A} (l : list A) i d : nth i l d = match nth_error l i with Some a => a | None => d end.
Proof. revert i. induction l as [|a l IH]; intros [|i]; cbn; auto. Qed.

(** ** Tables *)
Notation change := (((N * N) * Z) * nat)%type (only parsing).
Definition cnt (counts : list N) (i : nat) : Z := Z.of_N (nth i counts 0%N).
Definition net (counts : list N) (p : N * N) (chs : list change) : Z :=
  fold_right (fun c acc => ((if pair_eqb p (fst (fst c)) then snd (fst c) * cnt counts (snd c) else 0) + acc)%Z) 0%Z chs.
Definition mag (counts : list N) (chs : list change) : Z := fold_right (fun c acc => (cnt counts (snd c) + acc)%Z) 0%Z chs.
Definition unit_changes (n : nat) (chs : list change) : Prop := Forall (fun c => (snd (fst c) = 1%Z \/ snd (fst c) = (-1)%Z) /\ snd c < n) chs.
Definition new_change (c : change) : bool := is_new (fst c).
Definition at_word (wtu : list ((N * N) * list nat)) (p : N * N) (i : nat) : Prop := exists l, aget pair_eqb p wtu = Some l /\ In i l.

Lemma net_cons counts p c chs : net counts p (c :: chs) = ((if pair_eqb p (fst (fst c)) then snd (fst c) * cnt counts (snd c) else 0) + net counts p chs)%Z.
Proof. reflexivity. Qed.
Lemma net_app' counts p a b : net counts p (a ++ b) = (net counts p a + net counts p b)%Z.
Proof. induction a as [|c a IH]; [reflexivity|]. cbn [app]. rewrite !net_cons, IH. lia. Qed.
Lemma mag_cons counts c chs : mag counts (c :: chs) = (cnt counts (snd c) + mag counts chs)%Z.
Proof. reflexivity. Qed.
Lemma mag_app counts a b : mag counts (a ++ b) = (mag counts a + mag counts b)%Z.
Proof. induction a as [|c a IH]; [reflexivity|]. cbn [app]. rewrite !mag_cons, IH. lia. Qed.
Lemma cnt_nonneg counts i : (0 <= cnt counts i)%Z.
Proof. unfold cnt. lia. Qed.
Lemma mag_nonneg counts chs : (0 <= mag counts chs)%Z.
Proof. induction chs as [|c chs IH]; [cbn; lia|]. rewrite mag_cons. pose proof (cnt_nonneg counts (snd c)). lia. Qed.

Lemma as_i32_small n : (-2147483648 <= n < 2147483648)%Z -> as_i32 n = n.
Proof. intros H. unfold as_i32. rewrite Z.mod_small; lia. Qed.
Lemma chk_small z : (-2147483648 <= z < 2147483648)%Z -> chk_i32 z = Ok z.
Proof. intros H. unfold chk_i32, in_i32. destruct (Z.leb_spec (-2147483648) z); [|lia]. destruct (Z.ltb_spec z 2147483648); [|lia]. reflexivity. Qed.
Lemma as_u64_nonneg z : (0 <= z)%Z -> as_u64 z = z.
Proof. intros H. unfold as_u64. destruct (Z.ltb_spec z 0); [lia|reflexivity]. Qed.

Lemma pair_count_aset pc p k q : pair_count (aset pair_eqb p k pc) q = if pair_eqb q p then k else pair_count pc q.
Proof. unfold pair_count. rewrite (aget_aset _ pair_eqb_eq). destruct (pair_eqb q p); reflexivity. Qed.

Lemma set_add_in i l j : In j (set_add i l) <-> j = i \/ In j l.
Proof.
  unfold set_add. destruct (existsb (Nat.eqb i) l) eqn:E.
  - apply existsb_exists in E. destruct E as (x & H & E). apply Nat.eqb_eq in E. subst x. split; [auto|intros [->|H']; auto].
  - rewrite in_app_iff. cbn. split; [intros [H|[H|[]]]; auto|intros [H|H]; auto].
Qed.
Lemma set_add_nodup i l : NoDup l -> NoDup (set_add i l).
Proof.
  intros D. unfold set_add. destruct (existsb (Nat.eqb i) l) eqn:E; [exact D|]. apply NoDup_snoc; [exact D|].
  intros H. assert (X : existsb (Nat.eqb i) l = true); [|congruence]. apply existsb_exists. exists i. split; [exact H|apply Nat.eqb_refl].
Qed.

Lemma wtu_add_at wtu p i q j : at_word (wtu_add wtu p i) q j <-> at_word wtu q j \/ (q = p /\ j = i).
Proof.
  unfold at_word, wtu_add. rewrite (aget_aset _ pair_eqb_eq). destruct (pair_eqb q p) eqn:E.
  - apply pair_eqb_eq in E. subst q. split.
    + intros (l & H & HI). injection H as <-. rewrite set_add_in in HI. destruct HI as [->|HI]; [auto|]. left.
      destruct (aget pair_eqb p wtu) as [l0|]; [exists l0; auto|destruct HI].
    + intros [(l & H & HI)|[_ ->]]; (eexists; split; [reflexivity|]); rewrite set_add_in; [|auto]. rewrite H. auto.
  - split; [auto|]. intros [H|[-> _]]; [exact H|]. assert (X : pair_eqb p p = true) by (apply pair_eqb_eq; reflexivity). congruence.
Qed.

Lemma wtu_add_keys wtu p i q : In q (map fst (wtu_add wtu p i)) <-> q = p \/ In q (map fst wtu).
Proof. apply aset_keys_in. apply pair_eqb_eq. Qed.

Definition sets_ok (wtu : list ((N * N) * list nat)) : Prop := NoDup (map fst wtu) /\ forall p l, aget pair_eqb p wtu = Some l -> NoDup l.

Lemma wtu_add_ok wtu p i : sets_ok wtu -> sets_ok (wtu_add wtu p i).
Proof.
  intros [D1 D2]. split; [apply aset_nodup; [apply pair_eqb_eq|exact D1]|]. intros q l. unfold wtu_add. rewrite (aget_aset _ pair_eqb_eq).
  destruct (pair_eqb q p); [|apply D2]. intros H. injection H as <-. apply set_add_nodup. destruct (aget pair_eqb p wtu) eqn:E; [eapply D2; exact E|constructor].
Qed.

Lemma apply_changes_spec counts : forall chs pc wtu,
  unit_changes (length counts) chs -> (forall p, (Z.abs (pair_count pc p) + mag counts chs < 2147483648)%Z) -> sets_ok wtu ->
  exists pc' wtu', apply_changes counts chs (pc, wtu) = Ok (pc', wtu') /\
    (forall p, pair_count pc' p = (pair_count pc p + net counts p chs)%Z) /\
    (forall p, In p (map fst pc') <-> In p (map fst pc) \/ In p (map (fun c => fst (fst c)) chs)) /\
    sets_ok wtu' /\
    (forall p i, at_word wtu' p i <-> at_word wtu p i \/ In ((p, 1%Z), i) chs) /\
    (forall p, In p (map fst wtu') <-> In p (map fst wtu) \/ exists i, In ((p, 1%Z), i) chs) /\
    length wtu' <= length wtu + length (filter new_change chs).
Proof.
  induction chs as [|[[p d] i] chs IH]; intros pc wtu U B K; cbn [apply_changes].
  - exists pc, wtu. split; [reflexivity|]. split; [intros p; cbn; lia|]. split; [cbn; tauto|]. split; [exact K|]. split; [cbn; tauto|]. split; [|cbn; lia].
    intros p. split; [auto|]. intros [H|(i & [])]. exact H.
  - pose proof (Forall_inv U) as [Ud Ui]. apply Forall_inv_tail in U. cbn [fst snd] in Ud, Ui.
    assert (EN : nth_error counts i = Some (nth i counts 0%N)) by (apply nth_error_nth'; exact Ui).
    pose proof (mag_nonneg counts chs) as M0. pose proof (cnt_nonneg counts i) as C0. assert (B' := B). setoid_rewrite mag_cons in B'. cbn [snd] in B'.
    assert (C1 : (cnt counts i < 2147483648)%Z) by (specialize (B' p); lia).
    rewrite EN. cbn [of_option bind]. fold (cnt counts i). rewrite (as_i32_small (cnt counts i)) by lia.
    rewrite (chk_small (d * cnt counts i)) by (destruct Ud as [-> | ->]; lia). cbn [bind fst snd]. unfold pc_add.
    assert (DA : (Z.abs (d * cnt counts i) = cnt counts i)%Z) by (destruct Ud as [-> | ->]; lia).
    rewrite (chk_small (pair_count pc p + d * cnt counts i)) by (specialize (B' p); lia). cbn [bind].
    set (pc1 := aset pair_eqb p (pair_count pc p + d * cnt counts i)%Z pc). set (wtu1 := if Z.ltb 0 d then wtu_add wtu p i else wtu).
    destruct (IH pc1 wtu1) as (pc' & wtu' & E & H1 & H2 & H3 & H4 & H5 & H6).
    { exact U. }
    { intros q. unfold pc1. rewrite pair_count_aset. destruct (pair_eqb q p); [specialize (B' p)|specialize (B' q)]; lia. }
    { unfold wtu1. destruct (Z.ltb 0 d); [apply wtu_add_ok|]; exact K. }
    exists pc', wtu'. split; [exact E|]. split; [|split; [|split; [|split; [|split]]]].
    + intros q. rewrite H1, net_cons. cbn [fst snd]. unfold pc1. rewrite pair_count_aset. destruct (pair_eqb q p) eqn:Eq; [apply pair_eqb_eq in Eq; subst q; lia|lia].
    + intros q. rewrite H2. unfold pc1. rewrite (aset_keys_in _ pair_eqb_eq). cbn [map fst In]. intuition (subst; auto).
    + exact H3.
    + intros q j. rewrite H4. unfold wtu1. destruct Ud as [-> | ->].
      * cbn [Z.ltb Z.compare]. rewrite wtu_add_at. cbn [In]. split; [intros [[H|[-> ->]]|H]; auto|intros [H|[H|H]]; [auto|injection H as <- <-; auto|auto]].
      * cbn [Z.ltb Z.compare]. cbn [In]. split; [intros [H|H]; auto|intros [H|[H|H]]; [auto|discriminate|auto]].
    + intros q. rewrite H5. unfold wtu1. destruct Ud as [-> | ->].
      * cbn [Z.ltb Z.compare]. rewrite wtu_add_keys. split.
        -- intros [[->|H]|(j & H)]; [right; exists i; left; reflexivity|auto|right; exists j; right; exact H].
        -- intros [H|(j & [H|H])]; [auto|injection H as <- <-; auto|right; exists j; exact H].
      * cbn [Z.ltb Z.compare]. split; [intros [H|(j & H)]; [auto|right; exists j; right; exact H]|intros [H|(j & [H|H])]; [auto|discriminate|right; exists j; exact H]].
    + cbn [filter]. unfold new_change at 1, is_new. cbn [fst snd]. unfold wtu1 in H6. destruct Ud as [-> | ->]; cbn [Z.ltb Z.compare] in *; cbn [length]; [|lia].
      unfold wtu_add in H6. rewrite (aset_len _ pair_eqb_eq) in H6. destruct (amem _ _ _); lia.
Qed.

(** The first counts are changes too. *)
Fixpoint word_windows (i : nat) (words : list (list (N * nat))) : list change :=
  match words with
  | [] => []
  | w :: ws => map (fun p => ((p, 1%Z), i)) (windows (map fst w)) ++ word_windows (i + 1) ws
  end.

Lemma apply_app counts a : forall b t, apply_changes counts (a ++ b) t = (let! t' := apply_changes counts a t in apply_changes counts b t').
Proof.
  induction a as [|[[p d] i] a IH]; intros b t; [reflexivity|]. cbn [app apply_changes].
  destruct (of_option (nth_error counts i)); [|reflexivity|reflexivity]. cbn [bind]. destruct (chk_i32 _); [|reflexivity|reflexivity]. cbn [bind].
  destruct (pc_add _ _ _); [|reflexivity|reflexivity]. cbn [bind]. apply IH.
Qed.

Lemma count_windows_apply counts i ps : i < length counts -> (ps <> [] -> (cnt counts i < 2147483648)%Z) -> forall t,
  count_windows i (as_i32 (cnt counts i)) ps t = apply_changes counts (map (fun p => ((p, 1%Z), i)) ps) t.
Proof.
  intros L. induction ps as [|p ps IH]; intros H t; [reflexivity|]. cbn [count_windows map apply_changes].
  rewrite (nth_error_nth' counts 0%N L). cbn [of_option bind]. fold (cnt counts i). assert (C := H ltac:(discriminate)). pose proof (cnt_nonneg counts i).
  rewrite as_i32_small in * by lia. rewrite chk_small by lia. cbn [bind]. replace (1 * cnt counts i)%Z with (cnt counts i) by lia.
  destruct (pc_add (fst t) p (cnt counts i)); [|reflexivity|reflexivity]. cbn [bind]. rewrite <- IH by auto. reflexivity.
Qed.

Lemma count_pairs_apply counts : forall words pre rest t, counts = pre ++ rest -> length words = length rest ->
  (forall i w, nth_error words i = Some w -> 2 <= length w -> (cnt rest i < 2147483648)%Z) ->
  count_pairs (length pre) words rest t = apply_changes counts (word_windows (length pre) words) t.
Proof.
  induction words as [|w words IH]; intros pre rest t E L H; [reflexivity|]. destruct rest as [|n rest]; [discriminate|].
  cbn [count_pairs word_windows]. rewrite apply_app.
  assert (EC : cnt counts (length pre) = Z.of_N n) by (unfold cnt; rewrite E, app_nth2 by lia; rewrite Nat.sub_diag; reflexivity).
  rewrite <- EC, (count_windows_apply counts); [|rewrite E, app_length; cbn; lia|].
  2: { intros W. rewrite EC. specialize (H 0 w eq_refl). unfold cnt in H. cbn [nth] in H. apply H. destruct w as [|x [|y w]]; [cbn in W; congruence|cbn in W; congruence|cbn; lia]. }
  destruct (apply_changes counts _ t) as [t'| |]; [|reflexivity|reflexivity]. cbn [bind].
  specialize (IH (pre ++ [n]) rest t'). rewrite app_length in IH. cbn [length] in IH. apply IH; [rewrite <- app_assoc; exact E|cbn in L; lia|].
  intros i w' Hi Lw. specialize (H (S i) w' Hi Lw). unfold cnt in *. cbn [nth] in H. exact H.
Qed.

(** Entries pushed on the queue. *)
Definition new_entries (pc : list ((N * N) * Z)) (wtu : list ((N * N) * list nat)) : list tmerge :=
  flat_map (fun pl => if Z.ltb 0 (pair_count pc (fst pl)) then [mkTm (fst pl) (pair_count pc (fst pl)) (snd pl)] else []) wtu.

Lemma push_entries_spec pc : forall wtu q, (forall p, In p (map fst wtu) -> In p (map fst pc)) ->
  push_entries pc wtu q = Ok (q ++ new_entries pc wtu).
Proof.
  induction wtu as [|[p l] wtu IH]; intros q H; cbn [push_entries]; [cbn; rewrite app_nil_r; reflexivity|].
  destruct (aget_some_key _ pair_eqb_eq p pc) as (n & E); [apply H; left; reflexivity|]. rewrite E. cbn [of_option bind].
  rewrite IH by (intros q' Hq; apply H; right; exact Hq). cbn [new_entries flat_map fst snd]. assert (PC : pair_count pc p = n) by (unfold pair_count; rewrite E; reflexivity).
  rewrite PC. destruct (Z.ltb_spec 0 n) as [L|L]; [|reflexivity]. rewrite as_u64_nonneg by lia. rewrite <- app_assoc. reflexivity.
Qed.

Lemma new_entries_in pc wtu e : In e (new_entries pc wtu) <->
  (0 < tm_count e)%Z /\ tm_count e = pair_count pc (tm_pair e) /\ In (tm_pair e, tm_pos e) wtu.
Proof.
  unfold new_entries. rewrite in_flat_map. split.
  - intros ([p l] & H & HI). cbn [fst snd] in HI. destruct (Z.ltb_spec 0 (pair_count pc p)) as [L|L]; [|destruct HI]. destruct HI as [<-|[]]. cbn. auto.
  - intros (H1 & H2 & H3). exists (tm_pair e, tm_pos e). split; [exact H3|]. cbn [fst snd]. rewrite <- H2. destruct (Z.ltb_spec 0 (tm_count e)); [|lia]. left. destruct e; reflexivity.
Qed.

Lemma new_entries_len pc wtu : length (new_entries pc wtu) <= length wtu.
Proof. unfold new_entries. induction wtu as [|[p l] wtu IH]; [cbn; lia|]. cbn [flat_map]. rewrite app_length. destruct (Z.ltb 0 _); cbn [length]; lia. Qed.

Lemma new_entries_nodup pc wtu : NoDup (map fst wtu) -> NoDup (map tm_pair (new_entries pc wtu)).
Proof.
  unfold new_entries. induction wtu as [|[p l] wtu IH]; intros D; [constructor|]. cbn [flat_map map fst snd] in *. inversion D as [|? ? D1 D2]; subst.
  destruct (Z.ltb 0 _); [|apply IH; exact D2]. cbn. constructor; [|apply IH; exact D2]. intros H. apply D1. apply in_map_iff in H. destruct H as (e & E & H).
  apply in_flat_map in H. destruct H as ([q l'] & H & HI). cbn in HI. destruct (Z.ltb 0 _); [|destruct HI]. destruct HI as [<-|[]]. cbn in E. subst q.
  apply (in_map fst) in H. exact H.
Qed.

(** ** All words *)
Lemma set_nth_get {A} (a : A) : forall l i j, nth_error (set_nth i a l) j = if (i =? j) && (i <? length l) then Some a else nth_error l j.
Proof.
  induction l as [|x l IH]; intros i j; [destruct i, j; cbn; rewrite ?andb_false_r; reflexivity|]. destruct i as [|i], j as [|j]; cbn; try reflexivity. rewrite IH. reflexivity.
Qed.
Lemma set_nth_length {A} (a : A) : forall l i, length (set_nth i a l) = length l.
Proof. induction l as [|x l IH]; intros [|i]; cbn; auto. Qed.

Definition word_changes (c1 c2 r : N) (mx : option nat) (words : list (list (N * nat))) (i : nat) : list change :=
  map (fun c => (c, i)) (snd (word_merge c1 c2 r mx None (nth i words []))).

Lemma merge_at_spec c1 c2 r mx : forall pos words, NoDup pos -> (forall i, In i pos -> i < length words) ->
  exists ws, merge_at c1 c2 r mx pos words = Ok (ws, flat_map (word_changes c1 c2 r mx words) pos) /\ length ws = length words /\
    forall i, nth_error ws i = if existsb (Nat.eqb i) pos then option_map (replace c1 c2 r) (nth_error words i) else nth_error words i.
Proof.
  induction pos as [|i pos IH]; intros words D H; cbn [merge_at flat_map].
  - exists words. split; [reflexivity|]. split; [reflexivity|]. intros i. reflexivity.
  - inversion D as [|? ? D1 D2]; subst. assert (Li : i < length words) by (apply H; left; reflexivity).
    rewrite (nth_error_nth' words [] Li). cbn [of_option bind]. unfold word_changes at 1.
    destruct (word_merge c1 c2 r mx None (nth i words [])) as [w' ch] eqn:EW. cbn [snd].
    assert (W' : w' = replace c1 c2 r (nth i words [])). { rewrite <- (word_merge_replace c1 c2 r mx _ _ None (le_n _)), EW. reflexivity. }
    destruct (IH (set_nth i w' words) D2) as (ws & E & L & G). { intros j Hj. rewrite set_nth_length. apply H. right. exact Hj. }
    rewrite E. cbn [bind]. exists ws. split; [|split].
    + f_equal. f_equal. f_equal. apply flat_map_ext_in. intros j Hj. unfold word_changes.
      assert (X : nth j (set_nth i w' words) [] = nth j words []); [|rewrite X; reflexivity].
      assert (i <> j) by (intros ->; contradiction). rewrite !nth_nth_error, set_nth_get. destruct (Nat.eqb_spec i j); [contradiction|]. reflexivity.
    + rewrite L. apply set_nth_length.
    + intros j. rewrite G, !set_nth_get. cbn [existsb]. rewrite (Nat.eqb_sym j i). destruct (Nat.eqb_spec i j) as [<-|N]; cbn [andb orb].
      * destruct (Nat.ltb_spec i (length words)); [|lia]. replace (existsb (Nat.eqb i) pos) with false.
        -- rewrite (nth_error_nth' words [] Li). cbn. rewrite W'. reflexivity.
        -- symmetry. destruct (existsb (Nat.eqb i) pos) eqn:EX; [|reflexivity]. apply existsb_exists in EX. destruct EX as (x & HX & EX). apply Nat.eqb_eq in EX. subst x. contradiction.
      * reflexivity.
Qed.
