(** Proofs about BPE merging. *)
From Verif Require Import Base ListFacts BpeWordModel BpeWordSpec.

(** ** Vectors *)
Lemma upd_length {A} (f : A -> A) l : forall i, length (upd l i f) = length l.
Proof. induction l as [|a l IH]; intros [|i]; cbn; auto. Qed.

Lemma nth_error_upd {A} (f : A -> A) l : forall i j,
  nth_error (upd l i f) j = if i =? j then option_map f (nth_error l j) else nth_error l j.
Proof.
  induction l as [|a l IH]; intros [|i] [|j]; cbn; try reflexivity.
  - destruct (i =? j); reflexivity.
  - apply IH.
Qed.

Lemma nth_error_upd_same {A} (f : A -> A) l i a : nth_error l i = Some a -> nth_error (upd l i f) i = Some (f a).
Proof. intros H. rewrite nth_error_upd, Nat.eqb_refl, H. reflexivity. Qed.

Lemma nth_error_upd_other {A} (f : A -> A) l i j : i <> j -> nth_error (upd l i f) j = nth_error l j.
Proof. intros H. rewrite nth_error_upd. destruct (i =? j) eqn:E; [apply Nat.eqb_eq in E; congruence|reflexivity]. Qed.

(** ** The live symbols: position, id, length *)
Notation item := (nat * N * nat)%type (only parsing).
Definition ipos (x : item) : nat := fst (fst x).
Definition hdpos (V : list item) : option nat := match V with [] => None | x :: _ => Some (ipos x) end.
Definition shown (V : list item) : list (N * nat) := map (fun x => (snd (fst x), snd x)) V.

Definition or_pos (o d : option nat) : option nat := match o with Some _ => o | None => d end.

Fixpoint linked (prev : option nat) (V : list item) (nxt : option nat) (w : word) : Prop :=
  match V with
  | [] => True
  | (p, c, len) :: V' =>
      nth_error w p = Some (mkSym c prev (or_pos (hdpos V') nxt) len) /\ 0 < len /\ linked (Some p) V' nxt w
  end.

(** Positions increase from [b] on. *)
Fixpoint ordered (b : nat) (V : list item) : Prop :=
  match V with
  | [] => True
  | x :: V' => b <= ipos x /\ ordered (S (ipos x)) V'
  end.

Record state (w : word) (V : list item) : Prop := {
  st_linked : linked None V None w;
  st_ordered : ordered 0 V;
  st_bound : Forall (fun x => ipos x < length w) V;
  st_dead : forall i s, nth_error w i = Some s -> ~ In i (map ipos V) -> sy_len s = 0 }.

Lemma ordered_weaken V : forall b b', b' <= b -> ordered b V -> ordered b' V.
Proof. destruct V; cbn; [auto|]. intros b b' L [H1 H2]. split; [lia|exact H2]. Qed.

Lemma ordered_ge V : forall b x, ordered b V -> In x V -> b <= ipos x.
Proof.
  induction V as [|y V IH]; cbn; [tauto|]. intros b x [H1 H2] [->|HI]; [exact H1|].
  specialize (IH _ _ H2 HI). lia.
Qed.

Lemma ordered_app V1 x V2 : forall b, ordered b (V1 ++ x :: V2) <->
  ordered b V1 /\ Forall (fun y => ipos y < ipos x) V1 /\ b <= ipos x /\ ordered (S (ipos x)) V2.
Proof.
  induction V1 as [|y V1 IH]; intros b; cbn; [split; [intros [? ?]; auto|tauto]|]. rewrite IH. split.
  - intros (A & B & C & D & F). split; [split; assumption|]. split; [constructor; [lia|exact C]|]. split; [lia|exact F].
  - intros ((A & B) & C & D & F). inversion C; subst. split; [exact A|]. split; [exact B|]. split; [assumption|]. split; [lia|exact F].
Qed.

Lemma linked_upd w f i nxt V : forall prev, ~ In i (map ipos V) -> linked prev V nxt w -> linked prev V nxt (upd w i f).
Proof.
  induction V as [|[[p c] len] V IH]; cbn; [auto|]. intros prev N (A & B & C). split; [|split; [exact B|]].
  - rewrite nth_error_upd_other; [exact A|]. intros ->. apply N. left. reflexivity.
  - apply IH; [|exact C]. intros H. apply N. right. exact H.
Qed.

Definition lastpos (prev : option nat) (V : list item) : option nat :=
  match V with [] => prev | _ => Some (ipos (last V (0, 0%N, 0))) end.

Lemma lastpos_cons prev x V : lastpos prev (x :: V) = lastpos (Some (ipos x)) V.
Proof. destruct V; reflexivity. Qed.


Lemma linked_app w nxt V1 V2 : forall prev,
  linked prev (V1 ++ V2) nxt w <-> linked prev V1 (or_pos (hdpos V2) nxt) w /\ linked (lastpos prev V1) V2 nxt w.
Proof.
  induction V1 as [|[[p c] len] V1 IH]; intros prev.
  - cbn. tauto.
  - rewrite lastpos_cons. cbn [app linked]. rewrite IH. change (ipos (p, c, len)) with p.
    replace (or_pos (hdpos (V1 ++ V2)) nxt) with (or_pos (hdpos V1) (or_pos (hdpos V2) nxt)) by (destruct V1; reflexivity). tauto.
Qed.

Lemma linked_prev prev V nxt w p c len : linked prev V nxt w -> In (p, c, len) V ->
  exists pr nx, nth_error w p = Some (mkSym c pr nx len) /\ 0 < len.
Proof.
  revert prev. induction V as [|[[q d] m] V IH]; cbn; [tauto|]. intros prev (A & B & C) [E|HI].
  - injection E as -> -> ->. eauto.
  - eapply IH; eauto.
Qed.

Lemma shown_app A B : shown (A ++ B) = shown A ++ shown B.
Proof. apply map_app. Qed.

Lemma in_pos_app (i : nat) A B : In i (map ipos (A ++ B)) <-> In i (map ipos A) \/ In i (map ipos B).
Proof. rewrite map_app. apply in_app_iff. Qed.

(** ** Merging two neighbours *)
Definition lastitem (V : list item) : option item := match V with [] => None | _ => Some (last V (0, 0%N, 0)) end.

(** The entries pushed for the pairs around the merged item. *)
Definition pushed (merges : merge_map) (V1 : list item) (p : nat) (n : N) (V2 : list item) : list merge :=
  (match lastitem V1 with
   | Some (p', a, _) => match merges a n with Some (r, i) => [mkMerge p' r i] | None => [] end
   | None => []
   end) ++
  (match V2 with
   | (_, b, _) :: _ => match merges n b with Some (r, i) => [mkMerge p r i] | None => [] end
   | [] => []
   end).

Lemma lastitem_app V : forall x, lastitem V = Some x -> exists V', V = V' ++ [x].
Proof.
  destruct V as [|y V] using rev_ind; cbn; [discriminate|]. intros x H. exists V. unfold lastitem in H.
  destruct (V ++ [y]) eqn:E; [destruct V; discriminate|]. rewrite <- E in H. rewrite last_last in H. congruence.
Qed.

Lemma lastpos_lastitem V : lastpos None V = option_map ipos (lastitem V).
Proof. destruct V; reflexivity. Qed.

Lemma state_merge merges w V1 p a la m b lb V2 top r :
  state w (V1 ++ (p, a, la) :: (m, b, lb) :: V2) -> mg_pos top = p -> merges a b = Some (r, mg_id top) ->
  exists w', process merges top w = Ok (w', pushed merges V1 p (mg_id top) V2) /\
    length w' = length w /\ state w' (V1 ++ (p, mg_id top, la + lb) :: V2).
Proof.
  intros [L O B D] <- HM. set (p := mg_pos top) in *. set (n := mg_id top) in *.
  apply linked_app in L. destruct L as [L1 L2]. cbn [linked hdpos or_pos ipos fst] in L1, L2.
  destruct L2 as (Lp & Hla & Lm & Hlb & L2).
  apply ordered_app in O. destruct O as (O1 & OL & _ & O2). cbn [ordered] in O2. destruct O2 as [O2 O3]. change (ipos (p, a, la)) with p in *. change (ipos (m, b, lb)) with m in *.
  assert (NP1 : forall i, p <= i -> ~ In i (map ipos V1)).
  { intros i Hi HI. apply in_map_iff in HI. destruct HI as (y & <- & HI). rewrite Forall_forall in OL. specialize (OL _ HI). lia. }
  assert (NP2 : forall i, i <= m -> ~ In i (map ipos V2)).
  { intros i Hi HI. apply in_map_iff in HI. destruct HI as (y & <- & HI). pose proof (ordered_ge _ _ _ O3 HI). lia. }
  rewrite Forall_app in B. destruct B as [B1 B2]. inversion B2 as [|? ? Bp B3]; subst. inversion B3 as [|? ? Bm B4]; subst.
  change (ipos (p, a, la)) with p in *. change (ipos (m, b, lb)) with m in *.
  set (w1 := upd w p (merge_with (mkSym b (Some p) (or_pos (hdpos V2) None) lb) n)).
  set (w2 := upd w1 m (set_len 0)).
  set (w3 := match or_pos (hdpos V2) None with
             | Some nx => if nx <? length w2 then upd w2 nx (set_prev (Some p)) else w2
             | None => w2 end).
  assert (LEN2 : length w2 = length w) by (unfold w2, w1; rewrite !upd_length; reflexivity).
  assert (LEN3 : length w3 = length w).
  { unfold w3. destruct (or_pos (hdpos V2) None); [destruct (_ <? _); rewrite ?upd_length|]; exact LEN2. }
  assert (N3 : forall i, ~ In i (map ipos V2) -> nth_error w3 i = nth_error w2 i).
  { intros i Hi. unfold w3. destruct V2 as [|y V2]; [reflexivity|]. cbn [hdpos or_pos].
    destruct (ipos y <? length w2); [|reflexivity]. apply nth_error_upd_other. intros <-. apply Hi. left. reflexivity. }
  assert (Cp : nth_error w3 p = Some (mkSym n (lastpos None V1) (or_pos (hdpos V2) None) (la + lb))).
  { rewrite N3 by (apply NP2; lia). unfold w2. rewrite nth_error_upd_other by lia. unfold w1. rewrite (nth_error_upd_same _ _ _ _ Lp). reflexivity. }
  assert (Cm : exists s, nth_error w3 m = Some s /\ sy_len s = 0).
  { rewrite N3 by (apply NP2; lia). unfold w2. erewrite nth_error_upd_same; [|unfold w1; rewrite nth_error_upd_other by lia; exact Lm].
    eexists. split; [reflexivity|reflexivity]. }
  assert (LV1 : linked None V1 (Some p) w3).
  { unfold w3. destruct V2 as [|y V2]; cbn [hdpos or_pos].
    - unfold w2, w1. apply linked_upd; [apply NP1; lia|]. apply linked_upd; [apply NP1; lia|exact L1].
    - destruct (ipos y <? length w2).
      + cbn [ordered] in O3. apply linked_upd; [apply NP1; lia|]. unfold w2, w1. apply linked_upd; [apply NP1; lia|]. apply linked_upd; [apply NP1; lia|exact L1].
      + unfold w2, w1. apply linked_upd; [apply NP1; lia|]. apply linked_upd; [apply NP1; lia|exact L1]. }
  assert (LV2 : linked (Some p) V2 None w3).
  { destruct V2 as [|[[h c] lc] V2]; [exact I|]. unfold w3. cbn [hdpos or_pos]. change (ipos (h, c, lc)) with h in *.
    cbn [ordered] in O3. destruct O3 as [O3 O4]. change (ipos (h, c, lc)) with h in *.
    inversion B4; subst. change (ipos (h, c, lc)) with h in *. replace (h <? length w2) with true by (symmetry; apply Nat.ltb_lt; lia).
    cbn [linked] in L2 |- *. destruct L2 as (Lh & Hc & L2).
    assert (NH : forall i, i <= h -> ~ In i (map ipos V2)).
    { intros i Hi HI. apply in_map_iff in HI. destruct HI as (y & <- & HI). pose proof (ordered_ge _ _ _ O4 HI). lia. }
    split; [|split; [exact Hc|]].
    - erewrite nth_error_upd_same; [|unfold w2; rewrite nth_error_upd_other by lia; unfold w1; rewrite nth_error_upd_other by lia; exact Lh]. reflexivity.
    - apply linked_upd; [apply NH; lia|]. unfold w2, w1. apply linked_upd; [apply NH; lia|]. apply linked_upd; [apply NH; lia|exact L2]. }
  exists w3. split; [|split; [exact LEN3|]].
  - unfold process. fold p n. rewrite Lp. cbn [of_option bind sy_len sy_next].
    replace (la =? 0) with false by (symmetry; apply Nat.eqb_neq; lia). rewrite Lm. cbn [of_option bind sy_c]. rewrite HM.
    rewrite N.eqb_refl. cbn [negb]. cbv zeta. cbn [sy_next]. fold w1. fold w2. fold w3. rewrite Cp. cbn [of_option bind sy_prev sy_next].
    unfold pushed. rewrite lastpos_lastitem. destruct (lastitem V1) as [[[p' a'] l']|] eqn:EL.
    + cbn [option_map]. change (ipos (p', a', l')) with p'. destruct (lastitem_app _ _ EL) as (V1' & E1).
      assert (HP : exists s, nth_error w3 p' = Some s /\ sy_c s = a').
      { destruct (linked_prev _ _ _ _ p' a' l' LV1) as (pr & nx & X & _); [subst V1; apply in_app_iff; right; left; reflexivity|]. eauto. }
      destruct HP as (s & HP & Hs). rewrite HP. cbn [of_option bind]. unfold new_entry. cbn [sy_c]. try rewrite Hs.
      destruct V2 as [|[[h c] lc] V2]; cbn [hdpos or_pos].
      * reflexivity.
      * change (ipos (h, c, lc)) with h in *. inversion B4; subst. change (ipos (h, c, lc)) with h in *. replace (h <? length w3) with true by (symmetry; apply Nat.ltb_lt; lia).
        cbn [linked] in LV2. destruct LV2 as (Lh & _). rewrite Lh. reflexivity.
    + cbn [option_map bind]. destruct V2 as [|[[h c] lc] V2]; cbn [hdpos or_pos].
      * reflexivity.
      * change (ipos (h, c, lc)) with h in *. inversion B4; subst. change (ipos (h, c, lc)) with h in *. replace (h <? length w3) with true by (symmetry; apply Nat.ltb_lt; lia).
        cbn [linked] in LV2. destruct LV2 as (Lh & _). rewrite Lh. reflexivity.
  - constructor.
    + apply linked_app. split; [exact LV1|]. cbn [linked]. split; [exact Cp|]. split; [lia|exact LV2].
    + apply ordered_app. change (ipos (p, n, la + lb)) with p. split; [exact O1|]. split; [exact OL|]. split; [lia|].
      apply ordered_weaken with (S m); [lia|exact O3].
    + rewrite LEN3. apply Forall_app. split; [exact B1|]. constructor; [exact Bp|exact B4].
    + intros i s Hi NI. destruct (Nat.eq_dec i m) as [->|Nm].
      * destruct Cm as (s' & X & Y). rewrite X in Hi. injection Hi as <-. exact Y.
      * rewrite in_pos_app in NI. cbn [map In] in NI. change (ipos (p, n, la + lb)) with p in NI.
        rewrite N3 in Hi by tauto. unfold w2 in Hi. rewrite nth_error_upd_other in Hi by lia. unfold w1 in Hi.
        rewrite nth_error_upd_other in Hi by tauto. apply (D _ _ Hi). rewrite in_pos_app. cbn [map In].
        change (ipos (p, a, la)) with p. change (ipos (m, b, lb)) with m. intros [X|[X|[X|X]]]; try tauto. congruence.
Qed.

Lemma ordered_unique V1 : forall b x T V1' y T', ordered b (V1 ++ x :: T) -> V1 ++ x :: T = V1' ++ y :: T' ->
  ipos x = ipos y -> V1 = V1' /\ x = y /\ T = T'.
Proof.
  induction V1 as [|z V1 IH]; intros b x T [|z' V1'] y T' O E EP; cbn in *.
  - injection E as -> ->. auto.
  - injection E as -> ->. destruct O as [_ O]. exfalso.
    assert (X : S (ipos z') <= ipos y) by (eapply ordered_ge; [exact O|apply in_app_iff; right; left; reflexivity]). lia.
  - injection E as -> <-. destruct O as [_ O]. exfalso.
    assert (X : S (ipos y) <= ipos x) by (eapply ordered_ge; [exact O|apply in_app_iff; right; left; reflexivity]). lia.
  - injection E as -> E. destruct O as [_ O]. destruct (IH _ _ _ _ _ _ O E EP) as (-> & -> & ->). auto.
Qed.

Lemma process_spec merges w V top : state w V -> mg_pos top < length w ->
  (process merges top w = Ok (w, []) /\
   forall V1 a la m b lb V2 r, V = V1 ++ (mg_pos top, a, la) :: (m, b, lb) :: V2 -> merges a b <> Some (r, mg_id top)) \/
  (exists V1 a la m b lb V2 r w',
     V = V1 ++ (mg_pos top, a, la) :: (m, b, lb) :: V2 /\ merges a b = Some (r, mg_id top) /\
     process merges top w = Ok (w', pushed merges V1 (mg_pos top) (mg_id top) V2) /\
     length w' = length w /\ state w' (V1 ++ (mg_pos top, mg_id top, la + lb) :: V2)).
Proof.
  intros ST LT. pose proof ST as [L O B D].
  destruct (nth_error w (mg_pos top)) as [s|] eqn:ES; [|apply nth_error_None in ES; lia].
  destruct (in_dec Nat.eq_dec (mg_pos top) (map ipos V)) as [HI|NI].
  2:{ left. pose proof (D _ _ ES NI) as Z. split.
      - unfold process. rewrite ES. cbn [of_option bind]. rewrite Z. reflexivity.
      - intros V1 a la m b lb V2 r -> _. apply NI. rewrite in_pos_app. right. left. reflexivity. }
  apply in_map_iff in HI. destruct HI as ([[p a] la] & EP & HI). change (ipos (p, a, la)) with p in EP. subst p.
  apply in_split in HI. destruct HI as (V1 & T & ->).
  destruct (linked_app w None V1 ((mg_pos top, a, la) :: T) None) as [LA _]. destruct (LA L) as [L1 L2]. clear LA. cbn [linked] in L2. destruct L2 as (Lp & Hla & L2).
  rewrite ES in Lp. injection Lp as ->.
  destruct T as [|[[m b] lb] V2].
  - left. split.
    + unfold process. rewrite ES. cbn [of_option bind sy_len sy_next hdpos or_pos]. replace (la =? 0) with false by (symmetry; apply Nat.eqb_neq; lia). reflexivity.
    + intros V1' a' la' m b lb V2 r E _. destruct (ordered_unique _ _ _ _ _ _ _ O E eq_refl) as (_ & _ & X). discriminate.
  - cbn [hdpos or_pos] in ES. change (ipos (m, b, lb)) with m in ES. cbn [linked] in L2. destruct L2 as (Lm & Hlb & L2).
    destruct (merges a b) as [[r n]|] eqn:EM; [destruct (N.eqb n (mg_id top)) eqn:EN|].
    + right. apply N.eqb_eq in EN. subst n. destruct (state_merge merges w V1 (mg_pos top) a la m b lb V2 top r ST eq_refl EM) as (w' & X & Y & Z).
      exists V1, a, la, m, b, lb, V2, r, w'. auto.
    + left. split.
      * unfold process. rewrite ES. cbn [of_option bind sy_len sy_next]. replace (la =? 0) with false by (symmetry; apply Nat.eqb_neq; lia).
        rewrite Lm. cbn [of_option bind sy_c]. rewrite EM, EN. reflexivity.
      * intros V1' a' la' m' b' lb' V2' r' E EM'. destruct (ordered_unique _ _ _ _ _ _ _ O E eq_refl) as (_ & X & Y).
        injection X as -> ->. injection Y as -> -> -> ->. rewrite EM in EM'. injection EM' as _ ->. rewrite N.eqb_refl in EN. discriminate.
    + left. split.
      * unfold process. rewrite ES. cbn [of_option bind sy_len sy_next]. replace (la =? 0) with false by (symmetry; apply Nat.eqb_neq; lia).
        rewrite Lm. cbn [of_option bind sy_c]. rewrite EM. reflexivity.
      * intros V1' a' la' m' b' lb' V2' r' E EM'. destruct (ordered_unique _ _ _ _ _ _ _ O E eq_refl) as (_ & X & Y).
        injection X as -> ->. injection Y as -> -> -> ->. congruence.
Qed.

Lemma pushed_length merges V1 p n V2 : length (pushed merges V1 p n V2) <= 2.
Proof.
  unfold pushed. rewrite app_length. destruct (lastitem V1) as [[[? ?] ?]|]; destruct V2 as [|[[? ?] ?] ?];
    repeat match goal with |- context[match merges ?x ?y with _ => _ end] => destruct (merges x y) as [[? ?]|] end; cbn; lia.
Qed.

Lemma pushed_in merges V1 p n V2 e la : In e (pushed merges V1 p n V2) ->
  exists U1 x lx y U2 q ly, V1 ++ (p, n, la) :: V2 = U1 ++ (mg_pos e, x, lx) :: (q, y, ly) :: U2 /\ merges x y = Some (mg_rank e, mg_id e).
Proof.
  unfold pushed. rewrite in_app_iff. intros [H|H].
  - destruct (lastitem V1) as [[[p' a] l']|] eqn:EL; [|destruct H]. destruct (lastitem_app _ _ EL) as (V1' & ->).
    destruct (merges a n) as [[r i]|] eqn:EM; [|destruct H]. destruct H as [<-|[]]. cbn.
    exists V1', a, l', n, V2, p, la. rewrite <- app_assoc. auto.
  - destruct V2 as [|[[h b] lb] V2]; [destruct H|]. destruct (merges n b) as [[r i]|] eqn:EM; [|destruct H]. destruct H as [<-|[]]. cbn.
    exists V1, n, la, b, V2, h, lb. auto.
Qed.

(** Every pair of the new list is an old pair or is pushed. *)
Lemma pair_cases merges V1 p a la m b lb n ln V2 U1 x y U2 r i :
  V1 ++ (p, n, ln) :: V2 = U1 ++ x :: y :: U2 -> merges (snd (fst x)) (snd (fst y)) = Some (r, i) ->
  In (mkMerge (ipos x) r i) (pushed merges V1 p n V2) \/
  exists W1 W2, V1 ++ (p, a, la) :: (m, b, lb) :: V2 = W1 ++ x :: y :: W2.
Proof.
  intros E EM. revert V1 E. induction U1 as [|u U1 IH]; intros V1 E; destruct V1 as [|v V1]; cbn [app] in E.
  - injection E as <- ->. left. unfold pushed. apply in_app_iff. right. destruct y as [[h c] lc]. cbn in EM. rewrite EM. left. reflexivity.
  - destruct V1 as [|v' V1]; cbn [app] in E.
    + injection E as -> <- ->. left. unfold pushed. apply in_app_iff. left. destruct x as [[h c] lc]. cbn in *. rewrite EM. left. reflexivity.
    + injection E as -> -> <-. right. exists [], (V1 ++ (p, a, la) :: (m, b, lb) :: V2). reflexivity.
  - injection E as <- ->. right. exists ((p, a, la) :: (m, b, lb) :: U1), U2. reflexivity.
  - injection E as -> E. destruct (IH _ E) as [H|(W1 & W2 & H)].
    + left. unfold pushed in *. rewrite in_app_iff in *. destruct H as [H|H]; [left|right; exact H].
      destruct V1 as [|v' V1]; [destruct H|exact H].
    + right. exists (u :: W1), W2. cbn. rewrite H. reflexivity.
Qed.

(** ** Any draws *)
Section loops.
  Context (pop : list merge -> option (merge * list merge)) (HP : heap_ok pop) (merges : merge_map).

  Lemma pop_cases q : (q = [] /\ pop q = None) \/
    exists e q', pop q = Some (e, q') /\ Permutation q (e :: q') /\
    forall e', In e' q' -> (mg_rank e < mg_rank e')%N \/ (mg_rank e = mg_rank e' /\ mg_pos e <= mg_pos e').
  Proof. destruct HP as [A B]. destruct q; [left; auto|right; apply B; discriminate]. Qed.

  Lemma pushed_bound (w : word) V1 p n V2 la e :
    Forall (fun x => ipos x < length w) (V1 ++ (p, n, la) :: V2) -> In e (pushed merges V1 p n V2) -> mg_pos e < length w.
  Proof.
    intros B H. destruct (pushed_in _ _ _ _ _ _ la H) as (U1 & x & lx & y & U2 & q & ly & E & _). rewrite E in B.
    rewrite Forall_forall in B. apply (B (mg_pos e, x, lx)). apply in_app_iff. right. left. reflexivity.
  Qed.

  Lemma applies_shown V1 p a la m b lb V2 r n :
    merges a b = Some (r, n) ->
    applies merges (shown (V1 ++ (p, a, la) :: (m, b, lb) :: V2)) (length V1) r (shown (V1 ++ (p, n, la + lb) :: V2)).
  Proof.
    intros H. rewrite !shown_app. eapply applies_at; [reflexivity|unfold shown; apply map_length|exact H|reflexivity].
  Qed.

  Lemma loop_derives draws B : forall fuel k w V queue skip,
    state w V -> Forall (fun e => mg_pos e < length w) (queue ++ skip) ->
    2 * length V + length queue + length skip <= B ->
    (2 * length V + length queue + length skip) * (B + 1) + length queue < fuel ->
    exists w' V', merge_loop pop fuel merges draws k w queue skip = Ok w' /\ state w' V' /\ derives merges (shown V) (shown V').
  Proof.
    induction fuel as [|fuel IH]; intros k w V queue skip ST F HB HF; [lia|]. cbn [merge_loop].
    destruct (pop_cases queue) as [[-> HN]|(e & q' & HS & PM & _)].
    - rewrite HN. exists w, V. split; [reflexivity|]. split; [exact ST|constructor].
    - rewrite HS. assert (LQ : length queue = S (length q')) by (rewrite (Permutation_length PM); reflexivity).
      assert (F' : Forall (fun e => mg_pos e < length w) (e :: q' ++ skip)).
      { rewrite Forall_forall in *. intros z Hz. apply F. apply in_app_iff. change (e :: q' ++ skip) with ((e :: q') ++ skip) in Hz. apply in_app_iff in Hz.
        destruct Hz as [Hz|Hz]; [left; apply (Permutation_in _ (Permutation_sym PM) Hz)|right; exact Hz]. }
      inversion F' as [|? ? Fe Fr]; subst. destruct (draws k).
      + apply IH; [exact ST| | |].
        * rewrite Forall_forall in *. intros z Hz. apply F'. rewrite !in_app_iff in Hz. cbn in Hz. cbn. rewrite in_app_iff. tauto.
        * rewrite app_length. cbn. lia.
        * rewrite app_length. cbn [length]. replace (2 * length V + length q' + (length skip + 1)) with (2 * length V + length queue + length skip) by lia. lia.
      + destruct (process_spec merges w V e ST Fe) as [[HE _]|(V1 & a & la & m & b & lb & V2 & r & w' & EV & HM & HE & HL & ST')].
        * rewrite HE. cbn [bind]. rewrite app_nil_r.
          assert (LS : length (q' ++ skip) = length q' + length skip) by apply app_length.
          destruct (IH (k + 1) w V (q' ++ skip) []) as (w2 & V' & A & A2 & A3); [exact ST|rewrite app_nil_r; exact Fr|cbn; lia|cbn [length]; nia|].
          exists w2, V'. auto.
        * rewrite HE. cbn [bind]. pose proof (pushed_length merges V1 (mg_pos e) (mg_id e) V2) as PL.
          assert (LV : length V = S (length (V1 ++ (mg_pos e, mg_id e, la + lb) :: V2))) by (subst V; rewrite !app_length; cbn; lia).
          assert (LS : length (q' ++ skip ++ pushed merges V1 (mg_pos e) (mg_id e) V2) <= length q' + length skip + 2) by (rewrite !app_length; lia).
          destruct (IH (k + 1) w' _ (q' ++ skip ++ pushed merges V1 (mg_pos e) (mg_id e) V2) [] ST') as (w2 & V' & A & A2 & A3).
          -- rewrite app_nil_r, app_assoc. apply Forall_app. rewrite HL. split; [exact Fr|].
             apply Forall_forall. intros z Hz. eapply pushed_bound; [|exact Hz]. rewrite <- HL. apply (st_bound _ _ ST').
          -- cbn [length]. lia.
          -- cbn [length]. nia.
          -- exists w2, V'. split; [exact A|]. split; [exact A2|]. subst V. econstructor; [|exact A3]. eexists _, _. apply applies_shown. exact HM.
  Qed.

  Lemma loop_all_dropped draws : (forall k, draws k = true) -> forall fuel k w queue skip,
    length queue < fuel -> merge_loop pop fuel merges draws k w queue skip = Ok w.
  Proof.
    intros HD. induction fuel as [|fuel IH]; intros k w queue skip HF; [lia|]. cbn [merge_loop].
    destruct (pop_cases queue) as [[-> HN]|(e & q' & HS & PM & _)].
    - rewrite HN. reflexivity.
    - rewrite HS, HD. apply IH. apply Permutation_length in PM. cbn in PM. lia.
  Qed.

  (** ** No draw drops *)
  Section canon.
    Context (wt : N -> Z) (AD : additive merges wt) (n : nat) (S' : nat -> Z).
    Context (SI : forall i j, 0 < i -> i < j -> j <= n -> (S' i < S' j)%Z).

    Definition endp (V : list item) : nat := match V with [] => n | x :: _ => ipos x end.

    Fixpoint weighted (V : list item) : Prop :=
      match V with
      | [] => True
      | (p, c, _) :: V' => (S' p + wt c)%Z = S' (endp V') /\ weighted V'
      end.

    Definition entry_ok (V : list item) (e : merge) : Prop :=
      exists q, 0 < q <= n /\ (S' (mg_pos e) + wt (mg_id e))%Z = S' q /\
        forall V1 a la m b lb V2, V = V1 ++ (mg_pos e, a, la) :: (m, b, lb) :: V2 ->
          q <= endp V2 /\ (q = endp V2 -> merges a b = Some (mg_rank e, mg_id e)).

    Definition complete (V : list item) (queue : list merge) : Prop :=
      forall V1 x y V2 r i, V = V1 ++ x :: y :: V2 -> merges (snd (fst x)) (snd (fst y)) = Some (r, i) -> In (mkMerge (ipos x) r i) queue.

    Lemma weighted_app V1 V2 : weighted (V1 ++ V2) -> weighted V2.
    Proof. induction V1 as [|[[p c] l] V1 IH]; cbn; [auto|]. intros [_ H]. auto. Qed.

    Lemma weighted_swap V1 x y V2 V2' : weighted (V1 ++ x :: V2) -> ipos x = ipos y -> weighted (y :: V2') -> weighted (V1 ++ y :: V2').
    Proof.
      intros H E HY. induction V1 as [|[[p c] l] V1 IH]; cbn [app]; [exact HY|]. cbn [app weighted] in H |- *. destruct H as [H1 H2]. split; [|auto].
      rewrite H1. destruct V1 as [|z V1]; cbn [app endp]; [rewrite E; reflexivity|reflexivity].
    Qed.

    Lemma endp_le (w : word) V : Forall (fun x => ipos x < length w) V -> length w = n -> endp V <= n.
    Proof. intros F E. destruct V; cbn; [lia|]. inversion F; subst. lia. Qed.

    Lemma endp_gt V : forall b, ordered b V -> b <= n -> b <= endp V.
    Proof. destruct V; cbn; intros b H L; [lia|tauto]. Qed.

    (** An entry that passes the test is the current entry of its pair. *)
    Lemma entry_current w V V1 a la m b lb V2 r e : state w V -> length w = n -> weighted V ->
      V = V1 ++ (mg_pos e, a, la) :: (m, b, lb) :: V2 -> entry_ok V e -> merges a b = Some (r, mg_id e) -> r = mg_rank e.
    Proof.
      intros ST EN W -> (q & Q1 & Q2 & Q3) HM. destruct (Q3 _ _ _ _ _ _ _ eq_refl) as [Q4 Q5].
      apply weighted_app in W. cbn [weighted endp] in W. destruct W as (W1 & W2 & _). change (ipos (m, b, lb)) with m in W1.
      pose proof (AD _ _ _ _ HM) as AM. pose proof (st_bound _ _ ST) as B. rewrite Forall_app in B. destruct B as [_ B]. inversion B as [|? ? _ B']; subst. inversion B' as [|? ? _ B2]; subst.
      pose proof (endp_le _ _ B2 EN) as EL.
      assert (EQ : q = endp V2).
      { destruct (Nat.eq_dec q (endp V2)) as [X|X]; [exact X|]. assert (Y : (S' q < S' (endp V2))%Z) by (apply SI; lia). lia. }
      specialize (Q5 EQ). congruence.
    Qed.

    (** Entries stay fine when a pair is merged. *)
    Lemma entry_keep w V1 p a la m b lb V2 c lc e :
      state w (V1 ++ (p, a, la) :: (m, b, lb) :: V2) -> length w = n ->
      entry_ok (V1 ++ (p, a, la) :: (m, b, lb) :: V2) e -> entry_ok (V1 ++ (p, c, lc) :: V2) e.
    Proof.
      intros ST EN (q & Q1 & Q2 & Q3). exists q. split; [exact Q1|]. split; [exact Q2|].
      pose proof (st_ordered _ _ ST) as O. apply ordered_app in O. destruct O as (_ & OL & _ & O2). cbn [ordered] in O2. destruct O2 as [O2 O3].
      change (ipos (p, a, la)) with p in *. change (ipos (m, b, lb)) with m in *.
      pose proof (st_bound _ _ ST) as B. rewrite Forall_app in B. destruct B as [_ B]. inversion B as [|? ? Bp B']; subst. inversion B' as [|? ? Bm B2]; subst.
      change (ipos (p, a, la)) with p in *. change (ipos (m, b, lb)) with m in *.
      clear OL ST. intros U1 x lx m' y ly U2 E. revert V1 Q3 E. induction U1 as [|u U1 IH]; intros V1 Q3 E; destruct V1 as [|v V1]; cbn [app] in E.
      - injection E as -> -> -> ->. destruct (Q3 [] a la m b lb _ eq_refl) as [X _]. cbn [endp] in X. change (ipos (m', y, ly)) with m' in *.
        cbn [ordered] in O3. destruct O3 as [O3 O4]. inversion B2 as [|? ? B3 B4]; subst. change (ipos (m', y, ly)) with m' in *.
        pose proof (endp_gt _ _ O4 ltac:(lia)). split; lia.
      - destruct V1 as [|v' V1]; cbn [app] in E.
        + injection E as -> -> -> -> ->. destruct (Q3 [] _ _ _ _ _ _ eq_refl) as [X _]. cbn [endp] in X. change (ipos (m, b, lb)) with m in X.
          pose proof (endp_gt _ _ O3 ltac:(lia)). split; lia.
        + injection E as -> -> <-. destruct (Q3 [] _ _ _ _ _ _ eq_refl) as [X Y].
          assert (EE : endp (V1 ++ (p, c, lc) :: V2) = endp (V1 ++ (p, a, la) :: (m, b, lb) :: V2)) by (destruct V1; reflexivity). rewrite EE. auto.
      - injection E as _ E. subst V2. destruct (Q3 ((p, a, la) :: (m, b, lb) :: U1) _ _ _ _ _ _ eq_refl) as [X Y]. auto.
      - injection E as -> E. apply (IH V1); [|exact E].
        intros W1 x' lx' m1 y' ly' W2 EW. apply (Q3 (u :: W1) _ lx' m1 _ ly' _). cbn. rewrite EW. reflexivity.
    Qed.

    Lemma entry_new w V e U1 x lx q y ly U2 : state w V -> length w = n -> weighted V ->
      V = U1 ++ (mg_pos e, x, lx) :: (q, y, ly) :: U2 -> merges x y = Some (mg_rank e, mg_id e) -> entry_ok V e.
    Proof.
      intros ST EN W EV HM. exists (endp U2). pose proof W as W0. subst V. apply weighted_app in W0. cbn [weighted endp] in W0. destruct W0 as (W1 & W2 & _).
      change (ipos (q, y, ly)) with q in W1. pose proof (st_bound _ _ ST) as B. rewrite Forall_app in B. destruct B as [_ B]. inversion B as [|? ? _ B']; subst. inversion B' as [|? ? _ B2]; subst.
      pose proof (endp_le w U2 B2 EN) as EL.
      assert (E1 : q < endp U2).
      { pose proof (st_ordered _ _ ST) as O. apply ordered_app in O. destruct O as (_ & _ & _ & O2). cbn [ordered] in O2. destruct O2 as [O2 O3].
        inversion B' as [|? ? B5 _]; subst. change (ipos (q, y, ly)) with q in *. pose proof (endp_gt _ _ O3 ltac:(lia)). lia. }
      split; [lia|]. split; [rewrite (AD _ _ _ _ HM); lia|].
      intros V1 a la m b lb V2 E. destruct (ordered_unique _ _ _ _ _ _ _ (st_ordered _ _ ST) E eq_refl) as (_ & X & Y).
      injection X as -> ->. injection Y as -> -> -> ->. split; [lia|auto].
    Qed.

    Lemma loop_canonical draws : (forall k, draws k = false) -> forall fuel k w V queue,
      state w V -> length w = n -> weighted V -> Forall (fun e => mg_pos e < n /\ entry_ok V e) queue -> complete V queue ->
      2 * length V + length queue < fuel ->
      exists w' V', merge_loop pop fuel merges draws k w queue [] = Ok w' /\ state w' V' /\ canonical merges (shown V) (shown V').
    Proof.
      intros HD. induction fuel as [|fuel IH]; intros k w V queue ST EN W F C HF; [lia|]. cbn [merge_loop].
      assert (APP : forall k' r' l'', applies merges (shown V) k' r' l'' -> exists V1 x y V2 i, V = V1 ++ x :: y :: V2 /\ length V1 = k' /\ merges (snd (fst x)) (snd (fst y)) = Some (r', i)).
      { intros k' r' l'' [pre a la b lb post i E1 E2 E3 E4]. clear - E1 E2 E3. revert V k' E1 E2. induction pre as [|z pre IHp]; intros V k' E1 E2.
        - destruct V as [|[[px ax] lx] [|[[py ay] ly] V]]; cbn in E1; try discriminate. injection E1 as -> _ -> _ _. exists [], (px, a, lx), (py, b, ly), V, i. cbn in *. auto.
        - destruct V as [|x V]; cbn in E1; [discriminate|]. injection E1 as _ E1. destruct k' as [|k']; [cbn in E2; discriminate|]. cbn in E2.
          destruct (IHp V k' E1) as (V1 & x1 & y1 & V2 & i1 & -> & X & Y); [lia|]. exists (x :: V1), x1, y1, V2, i1. cbn. auto. }
      destruct (pop_cases queue) as [[-> HN]|(e & q' & HS & PM & MIN)].
      - rewrite HN. exists w, V. split; [reflexivity|]. split; [exact ST|]. split; [constructor|]. intros k' r' l'' A.
        destruct (APP _ _ _ A) as (V1 & x & y & V2 & i & EV & _ & HM). exact (C _ _ _ _ _ _ EV HM).
      - rewrite HS, HD. assert (LQ : length queue = S (length q')) by (rewrite (Permutation_length PM); reflexivity).
        assert (F' : Forall (fun e => mg_pos e < n /\ entry_ok V e) (e :: q')).
        { rewrite Forall_forall in *. intros z Hz. apply F. apply (Permutation_in _ (Permutation_sym PM) Hz). }
        inversion F' as [|? ? [Fe1 Fe2] Fr]; subst.
        rewrite <- EN in Fe1. destruct (process_spec merges w V e ST Fe1) as [[HE NP]|(V1 & a & la & m & b & lb & V2 & r & w' & EV & HM & HE & HL & ST')].
        + rewrite HE. cbn [bind]. rewrite !app_nil_r. apply IH; auto; [|lia].
          intros U1 x y U2 r i EV HM. pose proof (C _ _ _ _ _ _ EV HM) as HI. apply (Permutation_in _ PM) in HI. destruct HI as [HI|HI]; [|exact HI].
          exfalso. subst e. destruct x as [[p a] la]. destruct y as [[m b] lb]. cbn in *. apply (NP _ _ _ _ _ _ _ _ EV HM).
        + rewrite HE. cbn [bind]. pose proof (pushed_length merges V1 (mg_pos e) (mg_id e) V2) as PL.
          pose proof (entry_current _ _ _ _ _ _ _ _ _ _ _ ST EN W EV Fe2 HM) as ->.
          assert (W' : weighted (V1 ++ (mg_pos e, mg_id e, la + lb) :: V2)).
          { subst V. eapply weighted_swap; [exact W|reflexivity|]. apply weighted_app in W. cbn [weighted endp] in W |- *.
            destruct W as (W1 & W2 & W3). change (ipos (m, b, lb)) with m in W1. split; [|exact W3]. rewrite (AD _ _ _ _ HM). lia. }
          assert (LV : length V = S (length (V1 ++ (mg_pos e, mg_id e, la + lb) :: V2))) by (subst V; rewrite !app_length; cbn; lia).
          destruct (IH (k + 1) w' _ (q' ++ [] ++ pushed merges V1 (mg_pos e) (mg_id e) V2) ST') as (w2 & V' & A & A2 & A3 & A4).
          * congruence.
          * exact W'.
          * cbn [app]. apply Forall_app. split.
            -- rewrite Forall_forall in *. intros z Hz. destruct (Fr _ Hz) as [X Y]. split; [exact X|]. subst V. eapply entry_keep; [exact ST|exact EN|exact Y].
            -- apply Forall_forall. intros z Hz. split.
               ++ rewrite <- EN, <- HL. eapply pushed_bound; [|exact Hz]. apply (st_bound _ _ ST').
               ++ destruct (pushed_in _ _ _ _ _ _ (la + lb) Hz) as (U1 & x & lx & y & U2 & q & ly & E & M). eapply entry_new; [exact ST'|congruence|exact W'|exact E|exact M].
          * intros U1 x y U2 r i EU M. cbn [app]. apply in_app_iff.
            destruct (pair_cases merges V1 (mg_pos e) a la m b lb (mg_id e) (la + lb) V2 U1 x y U2 r i EU M) as [HI|(W1 & W2 & EW)]; [right; exact HI|left].
            rewrite <- EV in EW. pose proof (C _ _ _ _ _ _ EW M) as HI. apply (Permutation_in _ PM) in HI. destruct HI as [HI|HI]; [|exact HI].
            exfalso. subst V. assert (EP : mg_pos e = ipos x) by (rewrite HI; reflexivity). pose proof (st_ordered _ _ ST) as O.
            destruct (ordered_unique _ _ _ _ _ _ _ O EW EP) as (_ & _ & X). injection X as <- _.
            pose proof (st_ordered _ _ ST') as O'. assert (IY : In (m, b, lb) (V1 ++ (mg_pos e, mg_id e, la + lb) :: V2)) by (rewrite EU; apply in_app_iff; right; right; left; reflexivity).
            apply ordered_app in O. destruct O as (_ & O1 & _ & O2). cbn [ordered] in O2. change (ipos (mg_pos e, a, la)) with (mg_pos e) in *. change (ipos (m, b, lb)) with m in *.
            apply in_app_iff in IY. destruct IY as [IY|[IY|IY]].
            -- rewrite Forall_forall in O1. specialize (O1 _ IY). change (ipos (m, b, lb)) with m in O1. lia.
            -- injection IY as IY _ _. lia.
            -- destruct O2 as [_ O2]. pose proof (ordered_ge _ _ _ O2 IY) as X. change (ipos (m, b, lb)) with m in X. lia.
          * rewrite !app_length in *. cbn [length] in *. lia.
          * exists w2, V'. split; [exact A|]. split; [exact A2|]. split; [|exact A4]. econstructor; [|exact A3].
            exists (length V1), (mg_rank e). subst V. split; [apply applies_shown; exact HM|].
            intros k' r' l'' AP. destruct (APP _ _ _ AP) as (U1 & x & y & U2 & i & EU & EK & M).
            pose proof (C _ _ _ _ _ _ EU M) as HI. apply (Permutation_in _ PM) in HI.
            assert (ORD : mg_pos e <= ipos x -> length V1 <= k').
            { intros LE. destruct (le_lt_dec (length V1) k') as [H|H]; [exact H|]. exfalso. subst k'.
              pose proof (st_ordered _ _ ST) as O. apply ordered_app in O. destruct O as (_ & O1 & _). change (ipos (mg_pos e, a, la)) with (mg_pos e) in O1.
              assert (IX : In x V1).
              { clear - EU H. revert V1 H EU. induction U1 as [|u U1 IHU]; intros [|v V1] H EU; cbn in *; try lia.
                - injection EU as -> _. left. reflexivity.
                - injection EU as -> EU. right. apply IHU; [lia|exact EU]. }
              rewrite Forall_forall in O1. specialize (O1 _ IX). lia. }
            destruct HI as [HI|HI].
            -- right. rewrite HI. cbn. split; [reflexivity|]. apply ORD. rewrite HI. cbn. lia.
            -- destruct (MIN _ HI) as [X|[X Y]]; cbn in *; [left; exact X|right; split; [exact X|apply ORD; exact Y]].
    Qed.
  End canon.
End loops.

(** ** The word at the start *)
Fixpoint items (b : nat) (l : list (N * nat)) : list item :=
  match l with
  | [] => []
  | (c, len) :: l' => (b, c, len) :: items (S b) l'
  end.

Lemma items_length l : forall b, length (items b l) = length l.
Proof. induction l as [|[c n] l IH]; intros b; cbn; [reflexivity|]. rewrite IH. reflexivity. Qed.

Lemma items_shown l : forall b, shown (items b l) = l.
Proof. induction l as [|[c n] l IH]; intros b; cbn; [reflexivity|]. unfold shown in IH. rewrite IH. reflexivity. Qed.

Lemma items_ordered l : forall b, ordered b (items b l).
Proof. induction l as [|[c n] l IH]; intros b; cbn; [exact I|]. split; [apply Nat.le_refl|apply IH]. Qed.

Lemma items_pos l : forall b i, In i (map ipos (items b l)) <-> b <= i < b + length l.
Proof.
  induction l as [|[c n] l IH]; intros b i; cbn [items map In length]; [lia|]. rewrite IH. change (ipos (b, c, n)) with b. lia.
Qed.

Lemma word_of_app l c n : word_of (l ++ [(c, n)]) = word_add (word_of l) c n.
Proof. unfold word_of. rewrite fold_left_app. reflexivity. Qed.

Lemma word_of_nth l : length (word_of l) = length l /\
  forall i c n, nth_error l i = Some (c, n) ->
    nth_error (word_of l) i = Some (mkSym c (if i =? 0 then None else Some (i - 1)) (if S i <? length l then Some (S i) else None) n).
Proof.
  induction l as [|[c n] l [IHL IH]] using rev_ind.
  - split; [reflexivity|]. intros [|i] c n H; discriminate.
  - rewrite word_of_app, app_length. cbn [length]. unfold word_add. destruct (word_of l) as [|s w] eqn:EW.
    + destruct l; [|cbn in IHL; discriminate]. split; [reflexivity|]. intros [|[|i]] c' n' H; cbn in H; try discriminate.
      injection H as <- <-. reflexivity.
    + rewrite <- EW in *. rewrite IHL in *. split; [rewrite app_length, upd_length, IHL; reflexivity|].
      assert (LP : 0 < length l) by (rewrite <- IHL, EW; cbn; lia).
      intros i c' n' H. destruct (Nat.lt_ge_cases i (length l)) as [Hi|Hi].
      * rewrite nth_error_app1 in H by exact Hi. rewrite nth_error_app1 by (rewrite upd_length, IHL; exact Hi).
        specialize (IH _ _ _ H). rewrite nth_error_upd. rewrite IH. replace (S i <? length l + 1) with true by (symmetry; apply Nat.ltb_lt; lia).
        destruct (length l - 1 =? i) eqn:E.
        -- apply Nat.eqb_eq in E. cbn [option_map]. unfold set_next. cbn. replace (length l) with (S i) by lia. reflexivity.
        -- apply Nat.eqb_neq in E. replace (S i <? length l) with true by (symmetry; apply Nat.ltb_lt; lia). reflexivity.
      * assert (i = length l).
        { assert (i < length (l ++ [(c, n)])) by (apply nth_error_Some; congruence). rewrite app_length in *. cbn in *. lia. }
        subst i. rewrite nth_error_app2 in H by lia. rewrite Nat.sub_diag in H. cbn in H. injection H as <- <-.
        rewrite nth_error_app2 by (rewrite upd_length, IHL; lia). rewrite upd_length, IHL, Nat.sub_diag. cbn [nth_error].
        replace (length l =? 0) with false by (symmetry; apply Nat.eqb_neq; lia).
        replace (S (length l) <? length l + 1) with false by (symmetry; apply Nat.ltb_ge; lia). reflexivity.
Qed.

Lemma linked_items l w : forall b prev,
  (forall i c n, nth_error l i = Some (c, n) ->
     nth_error w (b + i) = Some (mkSym c (if i =? 0 then prev else Some (b + i - 1)) (if S i <? length l then Some (b + S i) else None) n)) ->
  Forall (fun s => 0 < snd s) l -> linked prev (items b l) None w.
Proof.
  induction l as [|[c n] l IH]; intros b prev H F; cbn [items linked]; [exact I|]. inversion F as [|? ? F1 F2]; subst. split; [|split; [exact F1|]].
  - specialize (H 0 c n eq_refl). rewrite Nat.add_0_r in H. rewrite H. cbn [Nat.eqb]. f_equal. f_equal. destruct l as [|[c' n'] l]; cbn; [reflexivity|].
    f_equal. lia.
  - apply IH; [|exact F2]. intros i c' n' E. specialize (H (S i) c' n' E). replace (S b + i) with (b + S i) by lia. rewrite H. f_equal. f_equal.
    + cbn [Nat.eqb]. destruct i; cbn [Nat.eqb]; f_equal; lia.
    + cbn [length]. destruct (S (S i) <? S (length l)) eqn:E1; destruct (S i <? length l) eqn:E2; try reflexivity; [f_equal; lia| |];
        apply Nat.ltb_lt in E1 || apply Nat.ltb_ge in E1; apply Nat.ltb_lt in E2 || apply Nat.ltb_ge in E2; lia.
Qed.

Lemma state_start l : Forall (fun s => 0 < snd s) l -> state (word_of l) (items 0 l).
Proof.
  intros F. destruct (word_of_nth l) as [L N]. constructor.
  - apply linked_items; [|exact F]. intros i c n E. cbn [Nat.add]. apply N. exact E.
  - apply items_ordered.
  - apply Forall_forall. intros x Hx. apply (in_map ipos) in Hx. apply items_pos in Hx. lia.
  - intros i s Hi NI. exfalso. apply NI. apply items_pos. assert (i < length (word_of l)) by (apply nth_error_Some; congruence). lia.
Qed.

Lemma initial_queue_spec merges w : forall b, length (initial_queue merges b w) <= length w /\
  forall e, In e (initial_queue merges b w) <->
    exists j x y, nth_error w j = Some x /\ nth_error w (S j) = Some y /\ mg_pos e = b + j /\ merges (sy_c x) (sy_c y) = Some (mg_rank e, mg_id e).
Proof.
  induction w as [|x w IH]; intros b.
  - split; [cbn; lia|]. intros e. cbn. split; [intros []|]. intros ([|j] & ? & ? & H & _); discriminate.
  - destruct w as [|y w].
    + split; [cbn; lia|]. intros e. cbn. split; [intros []|]. intros (j & ? & ? & _ & H & _). destruct j; discriminate.
    + destruct (IH (b + 1)) as [IL IN]. change (initial_queue merges b (x :: y :: w)) with
        ((match merges (sy_c x) (sy_c y) with Some (r, n) => [mkMerge b r n] | None => [] end) ++ initial_queue merges (b + 1) (y :: w)).
      split.
      * rewrite app_length. destruct (merges (sy_c x) (sy_c y)) as [[r n]|]; cbn [length] in *; lia.
      * intros e. rewrite in_app_iff, IN. split.
        -- intros [H|(j & x' & y' & H1 & H2 & H3 & H4)].
           ++ destruct (merges (sy_c x) (sy_c y)) as [[r n]|] eqn:EM; [|destruct H]. destruct H as [<-|[]]. exists 0, x, y. cbn. rewrite EM.
              repeat split. lia.
           ++ exists (S j), x', y'. cbn [nth_error]. repeat split; auto. lia.
        -- intros ([|j] & x' & y' & H1 & H2 & H3 & H4).
           ++ left. cbn in H1, H2. injection H1 as <-. injection H2 as <-. rewrite H4. left. destruct e as [p r i]. cbn in *. f_equal. lia.
           ++ right. exists j, x', y'. repeat split; auto. lia.
Qed.

Lemma retain w : forall b V, ordered b V ->
  (forall x, In x V -> ipos x < b + length w) ->
  (forall p c len, In (p, c, len) V -> exists s, nth_error w (p - b) = Some s /\ sy_c s = c /\ sy_len s = len /\ 0 < len) ->
  (forall i s, nth_error w i = Some s -> ~ In (b + i) (map ipos V) -> sy_len s = 0) ->
  word_view (filter (fun s => negb (sy_len s =? 0)) w) = shown V.
Proof.
  induction w as [|s w IH]; intros b V O B L D.
  - destruct V as [|x V]; [reflexivity|]. exfalso. specialize (B x (or_introl eq_refl)). destruct O as [O _]. cbn in B. lia.
  - destruct V as [|[[p c] len] V]; cbn [filter].
    + rewrite (D 0 s eq_refl) by (cbn; auto). cbn [Nat.eqb negb]. apply (IH (S b) []); cbn; auto; try tauto.
      intros i s' Hi _. apply (D (S i) s' Hi). cbn. auto.
    + destruct (Nat.eq_dec p b) as [->|NE].
      * destruct (L b c len (or_introl eq_refl)) as (s' & H1 & H2 & H3 & H4). rewrite Nat.sub_diag in H1. cbn in H1. injection H1 as <-.
        replace (sy_len s =? 0) with false by (symmetry; apply Nat.eqb_neq; lia). cbn [negb word_view shown map]. rewrite H2, H3. cbn [fst snd]. f_equal.
        destruct O as [_ O]. change (ipos (b, c, len)) with b in O. apply (IH (S b) V O).
        -- intros x Hx. specialize (B x (or_intror Hx)). cbn in B. lia.
        -- intros p c' len' Hx. destruct (L p c' len' (or_intror Hx)) as (s' & X1 & X). pose proof (ordered_ge _ _ _ O Hx) as G. change (ipos (p, c', len')) with p in G.
           replace (p - b) with (S (p - S b)) in X1 by lia. exists s'. split; [exact X1|exact X].
        -- intros i s' Hi NI. apply (D (S i) s' Hi). cbn [map In]. change (ipos (b, c, len)) with b. intros [X|X]; [lia|]. apply NI. replace (S b + i) with (b + S i) by lia. exact X.
      * destruct O as [O1 O2]. change (ipos (p, c, len)) with p in *.
        assert (G : forall x, In x V -> S p <= ipos x) by (intros x Hx; apply (ordered_ge _ _ _ O2 Hx)).
        rewrite (D 0 s eq_refl).
        2:{ rewrite Nat.add_0_r. cbn [map In]. change (ipos (p, c, len)) with p. intros [X|X]; [congruence|]. apply in_map_iff in X. destruct X as (x & X & Hx). specialize (G _ Hx). lia. }
        cbn [Nat.eqb negb]. apply (IH (S b) ((p, c, len) :: V)).
        -- cbn [ordered]. change (ipos (p, c, len)) with p. split; [lia|exact O2].
        -- intros x Hx. specialize (B x Hx). cbn in B. lia.
        -- intros p' c' len' Hx. destruct (L p' c' len' Hx) as (s' & X1 & X).
           assert (b < p') by (destruct Hx as [E|Hx]; [injection E as -> _ _; lia|specialize (G _ Hx); change (ipos (p', c', len')) with p' in G; lia]).
           replace (p' - b) with (S (p' - S b)) in X1 by lia. exists s'. split; [exact X1|exact X].
        -- intros i s' Hi NI. apply (D (S i) s' Hi). replace (b + S i) with (S b + i) by lia. exact NI.
Qed.

Lemma state_retain w V : state w V -> word_view (filter (fun s => negb (sy_len s =? 0)) w) = shown V.
Proof.
  intros [L O B D]. apply (retain w 0 V O).
  - intros x Hx. rewrite Forall_forall in B. apply B. exact Hx.
  - intros p c len Hx. destruct (linked_prev _ _ _ _ _ _ _ L Hx) as (pr & nx & X & Y). rewrite Nat.sub_0_r. eexists. split; [exact X|]. cbn. auto.
  - exact D.
Qed.

(** ** [merge_all] *)
Lemma merge_all_derives pop merges draws l : heap_ok pop -> Forall (fun s => 0 < snd s) l ->
  exists out, merge_all pop merges draws (word_of l) = Ok out /\ derives merges l (word_view out).
Proof.
  intros HP F. destruct (word_of_nth l) as [L _]. destruct (initial_queue_spec merges (word_of l) 0) as [QL QI].
  destruct (loop_derives pop HP merges draws (3 * length l) (merge_fuel (word_of l)) 0 (word_of l) (items 0 l) (initial_queue merges 0 (word_of l)) [])
    as (w' & V' & E & ST & DR).
  - apply state_start. exact F.
  - rewrite app_nil_r. apply Forall_forall. intros e He. apply QI in He. destruct He as (j & x & y & H1 & H2 & H3 & _). cbn in H3. rewrite H3. apply nth_error_Some. congruence.
  - rewrite items_length. cbn [length]. lia.
  - rewrite items_length. cbn [length]. unfold merge_fuel. rewrite L in *. nia.
  - unfold merge_all. rewrite E. cbn [bind]. eexists. split; [reflexivity|]. rewrite (state_retain _ _ ST). rewrite items_shown in DR. exact DR.
Qed.

Lemma merge_all_none pop merges draws l : heap_ok pop -> (forall k, draws k = true) -> Forall (fun s => 0 < snd s) l ->
  exists out, merge_all pop merges draws (word_of l) = Ok out /\ word_view out = l.
Proof.
  intros HP HD F. destruct (initial_queue_spec merges (word_of l) 0) as [QL QI]. unfold merge_all.
  rewrite loop_all_dropped; [|exact HP|exact HD|unfold merge_fuel; lia]. cbn [bind]. eexists. split; [reflexivity|].
  rewrite (state_retain _ _ (state_start l F)). apply items_shown.
Qed.

(** Sum of the weights of the first [i] symbols. *)
Fixpoint psum (wt : N -> Z) (l : list (N * nat)) (i : nat) : Z :=
  match i, l with
  | S i', x :: l' => (wt (fst x) + psum wt l' i')%Z
  | _, _ => 0%Z
  end.

Lemma psum_S wt l : forall i c n, nth_error l i = Some (c, n) -> psum wt l (S i) = (psum wt l i + wt c)%Z.
Proof.
  induction l as [|[c' n'] l IH]; intros [|i] c n H; try discriminate.
  - cbn in H. injection H as -> ->. destruct l; cbn; lia.
  - cbn [nth_error] in H. specialize (IH _ _ _ H). cbn [psum fst] in *. lia.
Qed.

Lemma psum_lt wt l : Forall (fun s => (0 < wt (fst s))%Z) (tl l) -> forall i j, 0 < i -> i < j -> j <= length l -> (psum wt l i < psum wt l j)%Z.
Proof.
  intros F i j P L1 L2. induction j as [|j IH]; [lia|].
  destruct (nth_error l j) as [[c n]|] eqn:E; [|apply nth_error_None in E; lia].
  rewrite (psum_S _ _ _ _ _ E). rewrite Forall_forall in F.
  assert (I : In (c, n) (tl l)) by (destruct l as [|x l]; [destruct j; discriminate|]; destruct j as [|j]; [lia|]; apply (nth_error_In _ j); exact E).
  pose proof (F _ I) as PP. cbn in PP. destruct (Nat.eq_dec i j) as [->|]; [lia|]. specialize (IH ltac:(lia) ltac:(lia)). lia.
Qed.

Lemma items_weighted wt l0 l : forall b, (forall i c n, nth_error l i = Some (c, n) -> nth_error l0 (b + i) = Some (c, n)) -> length l0 = b + length l ->
  weighted wt (length l0) (psum wt l0) (items b l).
Proof.
  induction l as [|[c n] l IH]; intros b H E; cbn [items weighted]; [exact I|]. split.
  - pose proof (H 0 c n eq_refl) as X. rewrite Nat.add_0_r in X. rewrite <- (psum_S _ _ _ _ _ X). f_equal.
    destruct l as [|[c' n'] l]; cbn in *; lia.
  - apply IH; [|cbn in E; lia]. intros i c' n' X. replace (S b + i) with (b + S i) by lia. apply H. exact X.
Qed.

Lemma items_pair l : forall b V1 x y V2, items b l = V1 ++ x :: y :: V2 ->
  exists j, nth_error l j = Some (snd (fst x), snd x) /\ nth_error l (S j) = Some (snd (fst y), snd y) /\ ipos x = b + j.
Proof.
  induction l as [|[c n] l IH]; intros b V1 x y V2 E; [destruct V1; discriminate|]. cbn [items] in E. destruct V1 as [|v V1]; cbn in E.
  - injection E as <- E. destruct l as [|[c' n'] l]; [discriminate|]. cbn in E. injection E as <- _. exists 0. cbn. repeat split. lia.
  - injection E as _ E. destruct (IH _ _ _ _ _ E) as (j & X & Y & Z). exists (S j). cbn [nth_error]. repeat split; auto. lia.
Qed.

Lemma word_of_c l i x : nth_error (word_of l) i = Some x -> nth_error l i = Some (sy_c x, sy_len x).
Proof.
  intros H. destruct (word_of_nth l) as [L N]. destruct (nth_error l i) as [[c n]|] eqn:E.
  - rewrite (N _ _ _ E) in H. injection H as <-. reflexivity.
  - apply nth_error_None in E. assert (i < length (word_of l)) by (apply nth_error_Some; congruence). lia.
Qed.

Lemma items_nth l : forall b j c n, nth_error l j = Some (c, n) -> exists V1 V2, items b l = V1 ++ (b + j, c, n) :: V2 /\ length V1 = j /\ V2 = items (b + S j) (skipn (S j) l).
Proof.
  induction l as [|[c' n'] l IH]; intros b [|j] c n H; try discriminate.
  - cbn in H. injection H as -> ->. exists [], (items (S b) l). cbn. rewrite Nat.add_0_r, Nat.add_1_r. auto.
  - cbn [nth_error] in H. destruct (IH (S b) _ _ _ H) as (V1 & V2 & E & E2 & E3). exists ((b, c', n') :: V1), V2. cbn [items app]. rewrite E.
    replace (S b + j) with (b + S j) by lia. split; [reflexivity|]. split; [cbn; lia|]. rewrite E3. cbn [skipn]. f_equal. lia.
Qed.

Lemma merge_all_canonical pop merges wt draws l : heap_ok pop -> (forall k, draws k = false) -> additive merges wt ->
  Forall (fun s => 0 < snd s) l -> Forall (fun s => (0 < wt (fst s))%Z) (tl l) ->
  exists out, merge_all pop merges draws (word_of l) = Ok out /\ canonical merges l (word_view out).
Proof.
  intros HP HD AD F1 F2. destruct (word_of_nth l) as [L _]. destruct (initial_queue_spec merges (word_of l) 0) as [QL QI].
  assert (W : weighted wt (length l) (psum wt l) (items 0 l)) by (apply items_weighted; [intros; assumption|reflexivity]).
  pose proof (state_start l F1) as ST0.
  destruct (loop_canonical pop HP merges wt AD (length l) (psum wt l) (psum_lt wt l F2) draws HD (merge_fuel (word_of l)) 0 (word_of l) (items 0 l) (initial_queue merges 0 (word_of l)))
    as (w' & V' & E & ST & CN).
  - exact ST0.
  - exact L.
  - exact W.
  - apply Forall_forall. intros e He. apply QI in He. destruct He as (j & x & y & H1 & H2 & H3 & H4). cbn in H3. split.
    + rewrite H3, <- L. apply nth_error_Some. congruence.
    + apply word_of_c in H1, H2. destruct (items_nth l 0 _ _ _ H1) as (V1 & V2 & E1 & E2 & E3). cbn [Nat.add] in *.
      destruct (skipn (S j) l) as [|z t] eqn:ES.
      { exfalso. assert (length (skipn (S j) l) = 0) by (rewrite ES; reflexivity). rewrite skipn_length in *. assert (S j < length l) by (apply nth_error_Some; congruence). lia. }
      assert (Z : z = (sy_c y, sy_len y)).
      { pose proof (nth_error_skipn l (S j) 0) as X. rewrite ES in X. cbn [nth_error] in X. rewrite Nat.add_0_r, H2 in X. congruence. }
      subst z. cbn [items] in E3. subst V2. rewrite <- H3 in E1.
      eapply entry_new; [exact AD|exact (psum_lt wt l F2)|exact ST0|exact L|exact W|exact E1|exact H4].
  - intros V1 x y V2 r i EV HM. apply QI. destruct (items_pair _ _ _ _ _ _ EV) as (j & X & Y & Z). cbn in Z.
    destruct (word_of_nth l) as [_ N]. exists j. eexists _, _. split; [apply N; exact X|]. split; [apply N; exact Y|]. cbn. auto.
  - rewrite items_length. unfold merge_fuel. rewrite L in *. nia.
  - unfold merge_all. rewrite E. cbn [bind]. eexists. split; [reflexivity|]. rewrite (state_retain _ _ ST). rewrite items_shown in CN. exact CN.
Qed.

(** ** The canonical segmentation is unique *)
Lemma applies_det merges l k r r' a b : applies merges l k r a -> applies merges l k r' b -> a = b /\ r = r'.
Proof.
  intros [pre x lx y ly post n E1 E2 E3 ->] [pre' x' lx' y' ly' post' n' F1 F2 F3 ->]. subst l.
  destruct (app_split_len _ _ _ _ F1) as [-> F]; [lia|]. injection F as -> -> -> -> ->. rewrite E3 in F3. injection F3 as -> ->. auto.
Qed.

Lemma greedy_det merges l a b : greedy merges l a -> greedy merges l b -> a = b.
Proof.
  intros (k & r & A & MA) (k' & r' & B & MB). destruct (MA _ _ _ B) as [X|[X Y]]; destruct (MB _ _ _ A) as [Z|[Z T]]; try lia.
  assert (k = k') by lia. subst k'. exact (proj1 (applies_det _ _ _ _ _ _ _ A B)).
Qed.

Lemma canonical_unique merges l a b : canonical merges l a -> canonical merges l b -> a = b.
Proof.
  intros [A NA] [B NB]. revert NA b B NB. induction A as [l|l l1 a G A IH]; intros NA b B NB.
  - inversion B as [|y z G B']; subst; [reflexivity|]. destruct G as (k & r & X & _). exfalso. eapply NA. exact X.
  - inversion B as [|y z G' B']; subst.
    + destruct G as (k & r & X & _). exfalso. eapply NB. exact X.
    + pose proof (greedy_det _ _ _ _ G G'). subst y. apply IH; assumption.
Qed.

(** Rules keep the total length. *)
Lemma derives_length merges l l' : derives merges l l' -> list_sum (map snd l') = list_sum (map snd l).
Proof.
  induction 1 as [l|l l1 l2 (k & r & [pre a la b lb post n -> _ _ ->]) _ IH]; [reflexivity|]. rewrite IH, !map_app, !list_sum_app. cbn. unfold list_sum. lia.
Qed.

Lemma greedy_derives merges l l' : steps (greedy merges) l l' -> derives merges l l'.
Proof. induction 1 as [l|l l1 l2 (k & r & A & _) _ IH]; [constructor|]. econstructor; [|exact IH]. eauto. Qed.
