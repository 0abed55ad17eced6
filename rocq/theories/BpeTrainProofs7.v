(** Proofs about training: without prefix and suffix every merge has a new result. *)
From Verif Require Import Base ListFacts AMap EncodingModel BpeWordModel BpeModel BpeTrainModel BpeTrainSpec BpeTrainProofs BpeTrainProofs2 BpeTrainProofs3 BpeTrainProofs4 BpeTrainProofs5 BpeTrainProofs6.
From Coq Require Import ZArith.

(** ** Segmentations are local *)
Notation sword := (list (N * nat)) (only parsing).
Definition apply_merge (w : sword) (m : (N * N) * N) : sword := replace (fst (fst m)) (snd (fst m)) (snd m) w.
Definition seg (ms : list ((N * N) * N)) (w : sword) : sword := fold_left apply_merge ms w.
Definition tl (w : sword) : nat := list_sum (map snd w).
Definition positive (w : sword) : Prop := Forall (fun s => 1 <= snd s) w.
Definition crosses (k : nat) (w : sword) : Prop := exists L s R, w = L ++ s :: R /\ tl L < k /\ k < tl L + snd s.

Lemma replace_cons2 a b r x y w : replace a b r (x :: y :: w) =
  if N.eqb (fst x) a && N.eqb (fst y) b then (r, snd x + snd y) :: replace a b r w else x :: replace a b r (y :: w).
Proof. reflexivity. Qed.
Lemma pos_head x w : positive (x :: w) -> 1 <= snd x.
Proof. intros H. exact (Forall_inv H). Qed.

Lemma tl_app a b : tl (a ++ b) = tl a + tl b.
Proof. unfold tl. rewrite map_app, list_sum_app. reflexivity. Qed.
Lemma tl_cons x w : tl (x :: w) = snd x + tl w.
Proof. reflexivity. Qed.

Lemma replace_tl a b r : forall n w, length w <= n -> tl (replace a b r w) = tl w.
Proof.
  induction n as [|n IH]; intros w L; [destruct w; [reflexivity|cbn in L; lia]|]. destruct w as [|x w1]; [reflexivity|]. cbn [replace]. destruct w1 as [|y w2]; [reflexivity|]. cbn [length] in L.
  destruct (_ && _); rewrite !tl_cons.
  - rewrite (IH w2) by lia. cbn [snd]. lia.
  - rewrite (IH (y :: w2)) by (cbn [length]; lia). rewrite tl_cons. lia.
Qed.

Lemma replace_positive a b r w : positive w -> positive (replace a b r w).
Proof.
  intros H. apply Forall_forall. intros s Hs. apply (replace_in _ _ _ _ _ _ (le_n _)) in Hs. unfold positive in H. rewrite Forall_forall in H. destruct Hs as [Hs|(_ & x & y & H1 & H2 & _ & _ & H3)]; [apply H; exact Hs|]. specialize (H x H1). lia.
Qed.

Lemma replace_app a b r : forall n X Y, length X <= n -> positive X -> positive Y ->
  replace a b r (X ++ Y) = replace a b r X ++ replace a b r Y \/ crosses (tl X) (replace a b r (X ++ Y)).
Proof.
  induction n as [|n IH]; intros X Y L PX PY; [destruct X; [left; reflexivity|cbn in L; lia]|]. destruct X as [|x X1]; [left; reflexivity|]. pose proof (pos_head _ _ PX) as Px. pose proof (Forall_inv_tail PX) as PX1. destruct X1 as [|y X2].
  - cbn [app replace]. destruct Y as [|y Y]; [left; reflexivity|]. destruct (_ && _); [|left; reflexivity]. right. pose proof (pos_head _ _ PY) as Py. exists [], (r, snd x + snd y), (replace a b r Y). split; [reflexivity|]. unfold tl. cbn. lia.
  - change ((x :: y :: X2) ++ Y) with (x :: y :: (X2 ++ Y)). rewrite !replace_cons2. cbn [length] in L. destruct (_ && _).
    + pose proof (Forall_inv_tail PX1) as PX2. destruct (IH X2 Y ltac:(lia) PX2 PY) as [E|(A & s & B & E & H1 & H2)]; [left; rewrite E; reflexivity|]. right. exists ((r, snd x + snd y) :: A), s, B.
      split; [rewrite E; reflexivity|]. rewrite !tl_cons. cbn [snd]. lia.
    + destruct (IH (y :: X2) Y ltac:(cbn [length]; lia) PX1 PY) as [E|(A & s & B & E & H1 & H2)].
      * left. change (y :: X2 ++ Y) with ((y :: X2) ++ Y). rewrite E. reflexivity.
      * right. exists (x :: A), s, B. split; [change (y :: X2 ++ Y) with ((y :: X2) ++ Y); rewrite E; reflexivity|]. rewrite !tl_cons in *. lia.
Qed.

Lemma crosses_replace a b r k : forall n w, length w <= n -> positive w -> crosses k w -> crosses k (replace a b r w).
Proof.
  intros n. revert k. induction n as [|n IH]; intros k w Ln P (L & s & R & -> & H1 & H2); [rewrite app_length in Ln; cbn in Ln; lia|].
  destruct L as [|x L].
  - cbn [app] in *. unfold tl in H1, H2. cbn in H1, H2. destruct R as [|y R]; [exists [], s, []; unfold tl; cbn; auto|]. rewrite replace_cons2. destruct (_ && _).
    + exists [], (r, snd s + snd y), (replace a b r R). split; [reflexivity|]. unfold tl. cbn. lia.
    + exists [], s, (replace a b r (y :: R)). split; [reflexivity|]. unfold tl. cbn. lia.
  - cbn [app] in *. rewrite tl_cons in *. pose proof (pos_head _ _ P) as Px. pose proof (Forall_inv_tail P) as P1. destruct L as [|y L].
    + unfold tl in H1, H2. cbn [map list_sum fold_right app] in *. rewrite replace_cons2. destruct (_ && _).
      * exists [], (r, snd x + snd s), (replace a b r R). split; [reflexivity|]. unfold tl. cbn. lia.
      * destruct (IH (k - snd x) (s :: R)) as (A & z & B & E & X1 & X2); [cbn [length] in *; lia|exact P1|exists [], s, R; split; [reflexivity|unfold tl; cbn; lia]|].
        exists (x :: A), z, B. split; [rewrite E; reflexivity|]. rewrite tl_cons. lia.
    + cbn [app] in *. rewrite tl_cons in H1, H2. rewrite replace_cons2. destruct (_ && _).
      * destruct (IH (k - snd x - snd y) (L ++ s :: R)) as (A & z & B & E & X1 & X2); [cbn [length] in *; lia|exact (Forall_inv_tail P1)|exists L, s, R; split; [reflexivity|lia]|].
        exists ((r, snd x + snd y) :: A), z, B. split; [rewrite E; reflexivity|]. rewrite tl_cons. cbn [snd]. lia.
      * destruct (IH (k - snd x) (y :: L ++ s :: R)) as (A & z & B & E & X1 & X2); [cbn [length] in *; lia|exact P1|exists (y :: L), s, R; split; [reflexivity|rewrite tl_cons; lia]|].
        exists (x :: A), z, B. split; [rewrite E; reflexivity|]. rewrite tl_cons. lia.
Qed.

Lemma crosses_not_split k A B : tl A = k -> positive (A ++ B) -> ~ crosses k (A ++ B).
Proof.
  intros E P (L & s & R & EQ & H1 & H2).
  assert (G : forall A B L s R, A ++ B = L ++ s :: R -> tl L < tl A -> tl L + snd s <= tl A).
  { clear. induction A as [|x A IH]; intros B L s R EQ H; [unfold tl in H; cbn in H; lia|]. destruct L as [|y L]; cbn [app] in EQ; injection EQ as -> EQ.
    - unfold tl. cbn [map list_sum fold_right]. lia.
    - rewrite !tl_cons in *. specialize (IH B L s R EQ ltac:(lia)). lia. }
  specialize (G A B L s R EQ ltac:(lia)). lia.
Qed.

Lemma seg_tl ms : forall w, tl (seg ms w) = tl w.
Proof. induction ms as [|m ms IH]; intros w; [reflexivity|]. cbn [seg fold_left]. fold (seg ms (apply_merge w m)). rewrite IH. apply (replace_tl _ _ _ _ _ (le_n _)). Qed.
Lemma seg_positive ms : forall w, positive w -> positive (seg ms w).
Proof. induction ms as [|m ms IH]; intros w H; [exact H|]. cbn [seg fold_left]. fold (seg ms (apply_merge w m)). apply IH, replace_positive. exact H. Qed.
Lemma seg_crosses ms k : forall w, positive w -> crosses k w -> crosses k (seg ms w).
Proof.
  induction ms as [|m ms IH]; intros w P H; [exact H|]. cbn [seg fold_left]. fold (seg ms (apply_merge w m)). apply IH; [apply replace_positive; exact P|]. apply (crosses_replace _ _ _ _ _ _ (le_n _) P H).
Qed.

Lemma app_same_tl : forall A A' B B' : sword, positive (A ++ B) -> A ++ B = A' ++ B' -> tl A = tl A' -> A = A' /\ B = B'.
Proof.
  induction A as [|x A IH]; intros [|y A'] B B' P E T.
  - auto.
  - exfalso. cbn [app] in *. subst B. pose proof (pos_head _ _ P). rewrite tl_cons in T. unfold tl in T at 1. cbn in T. lia.
  - exfalso. cbn [app] in *. pose proof (pos_head _ _ P). rewrite tl_cons in T. unfold tl in T at 2. cbn in T. lia.
  - cbn [app] in *. injection E as -> E. rewrite !tl_cons in T. destruct (IH A' B B' (Forall_inv_tail P) E ltac:(lia)) as [-> ->]. auto.
Qed.

Lemma seg_split ms : forall X Y A B, positive X -> positive Y -> seg ms (X ++ Y) = A ++ B -> tl A = tl X -> seg ms X = A /\ seg ms Y = B.
Proof.
  induction ms as [|m ms IH]; intros X Y A B PX PY E T.
  - cbn [seg fold_left] in *. apply app_same_tl; [apply Forall_app; split; assumption|exact E|lia].
  - cbn [seg fold_left] in *. fold (seg ms (apply_merge (X ++ Y) m)) in E. fold (seg ms (apply_merge X m)) (seg ms (apply_merge Y m)).
    destruct (replace_app (fst (fst m)) (snd (fst m)) (snd m) _ X Y (le_n _) PX PY) as [R|R].
    + unfold apply_merge at 1 in E. rewrite R in E. apply IH; [apply replace_positive; exact PX|apply replace_positive; exact PY|exact E|]. unfold apply_merge. rewrite (replace_tl _ _ _ _ _ (le_n _)). exact T.
    + exfalso. assert (PXY : positive (X ++ Y)) by (apply Forall_app; split; assumption). apply (seg_crosses ms) in R; [|apply replace_positive; exact PXY].
      change (replace (fst (fst m)) (snd (fst m)) (snd m) (X ++ Y)) with (apply_merge (X ++ Y) m) in R. rewrite E in R. apply (crosses_not_split _ _ _ T) in R; [exact R|]. rewrite <- E. apply seg_positive, replace_positive. exact PXY.
Qed.

(** ** Words of single characters *)
Definition chr (toks : list str) (c : char) : N := match aget str_eqb [c] (indexed toks) with Some i => i | None => 0%N end.
Definition chars (toks : list str) (s : str) : sword := map (fun c => (chr toks c, 1)) s.
Definition known (toks : list str) (s : str) : str := filter (fun c => amem str_eqb [c] (indexed toks)) s.

Lemma chars_app toks a b : chars toks (a ++ b) = chars toks a ++ chars toks b.
Proof. apply map_app. Qed.
Lemma chars_positive toks s : positive (chars toks s).
Proof. apply Forall_forall. intros x H. apply in_map_iff in H. destruct H as (c & <- & _). cbn. lia. Qed.
Lemma chars_tl toks s : tl (chars toks s) = length s.
Proof. induction s as [|c s IH]; [reflexivity|]. cbn [chars map]. fold (chars toks s). rewrite tl_cons, IH. reflexivity. Qed.

Lemma chr_spec toks c : NoDup toks -> In [c] toks -> nth_error toks (N.to_nat (chr toks c)) = Some [c].
Proof.
  intros D H. unfold chr. apply amem_indexed in H. unfold amem in H. destruct (aget str_eqb [c] (indexed toks)) as [i|] eqn:E; [|discriminate]. apply aget_indexed in E; assumption.
Qed.

Lemma spelled_plain tr toks : NoDup toks -> tr_prefix tr = None -> tr_suffix tr = None -> forall first s w, spelled tr toks first s w -> w = chars toks (known toks s).
Proof.
  intros D HP HS first s w H. induction H as [first|first c s i w K E Sp IH|first c s w K Sp IH]; [reflexivity| |].
  - cbn [known filter]. rewrite (proj2 (amem_indexed toks [c]) K). cbn [chars map]. fold (known toks s) (chars toks (known toks s)). rewrite <- IH. f_equal.
    unfold affixed in E. rewrite HP, HS in E. assert (E' : nth_error toks (N.to_nat i) = Some [c]) by (rewrite E; destruct first, (is_nil s); reflexivity).
    unfold chr. apply (aget_indexed toks [c] i D) in E'. rewrite E'. reflexivity.
  - cbn [known filter]. rewrite (proj2 (amem_indexed_false toks [c]) K). exact IH.
Qed.

(** ** The invariant *)
Definition tok (st : tstate) (x : N) : str := nth (N.to_nat x) (v_words (ts_voc st)) [].
Definition text_of (st : tstate) (w : sword) : str := flat_map (fun s => tok st (fst s)) w.

Record kinv (toks0 : list str) (texts : list str) (U : list N) (st : tstate) : Prop := mkKinv {
  k_words : ts_words st = map (fun s => seg (ts_merges st) (chars toks0 s)) texts;
  k_text : Forall2 (fun w s => text_of st w = s) (ts_words st) texts;
  k_len : forall w s, In w (ts_words st) -> In s w -> snd s = length (tok st (fst s));
  k_used : forall y, In y U -> seg (ts_merges st) (chars toks0 (tok st y)) = [(y, length (tok st y))];
  k_U : forall y, In y U -> N.to_nat y < length (v_words (ts_voc st)) }.

Lemma text_tl st w : (forall s, In s w -> snd s = length (tok st (fst s))) -> length (text_of st w) = tl w.
Proof.
  induction w as [|x w IH]; intros H; [reflexivity|]. cbn [text_of flat_map]. fold (text_of st w). rewrite app_length, IH, tl_cons by (intros s Hs; apply H; right; exact Hs). rewrite (H x) by (left; reflexivity). reflexivity.
Qed.

(** Where two symbols meet, the text of both alone is cut into just these two. *)
Lemma kinv_pair toks0 texts U st pre x y post : kinv toks0 texts U st -> In (pre ++ x :: y :: post) (ts_words st) ->
  seg (ts_merges st) (chars toks0 (tok st (fst x) ++ tok st (fst y))) = [x; y].
Proof.
  intros K HI. pose proof (k_len _ _ _ _ K (pre ++ x :: y :: post)) as KL. pose proof (k_text _ _ _ _ K) as KT. rewrite (k_words _ _ _ _ K) in HI. apply in_map_iff in HI. destruct HI as (s & E & Hs).
  assert (ES : text_of st (pre ++ x :: y :: post) = s).
  { rewrite (k_words _ _ _ _ K) in KT. rewrite <- E. clear - KT Hs. induction texts as [|s' texts IH]; [destruct Hs|]. cbn [map] in KT. inversion KT as [|? ? ? ? X1 X2]; subst. destruct Hs as [->|Hs]; [exact X1|]. apply IH; assumption. }
  assert (KL' : forall z, In z (pre ++ x :: y :: post) -> snd z = length (tok st (fst z))).
  { intros z Hz. apply KL; [|exact Hz]. rewrite (k_words _ _ _ _ K). apply in_map_iff. eauto. }
  unfold text_of in ES. rewrite flat_map_app in ES. cbn [flat_map] in ES. fold (text_of st pre) (text_of st post) in ES.
  rewrite <- ES, chars_app in E. apply seg_split in E; [|apply chars_positive|apply chars_positive|].
  2: { rewrite chars_tl, text_tl; [reflexivity|]. intros z Hz. apply KL'. apply in_or_app. left. exact Hz. }
  destruct E as [_ E]. rewrite app_assoc, chars_app in E. change (x :: y :: post) with ([x; y] ++ post) in E. apply seg_split in E; [|apply chars_positive|apply chars_positive|].
  2: { rewrite chars_tl, app_length, <- !KL' by (apply in_or_app; right; cbn; auto). unfold tl. cbn. lia. }
  apply E.
Qed.

Lemma merge_step_nth tr counts top q st st' ta tb t r wtu i s : merge_step tr counts top q st st' ta tb t r wtu -> nth_error (v_words (ts_voc st)) i = Some s -> nth_error (v_words (ts_voc st')) i = Some s.
Proof.
  intros MS H. destruct (ms_toks _ _ _ _ _ _ _ _ _ _ _ MS) as [[_ ->]|[_ ->]]; [exact H|]. rewrite nth_error_app1; [exact H|]. apply nth_error_Some. congruence.
Qed.
Lemma merge_step_tok tr counts top q st st' ta tb t r wtu y : merge_step tr counts top q st st' ta tb t r wtu -> N.to_nat y < length (v_words (ts_voc st)) -> tok st' y = tok st y.
Proof.
  intros MS H. unfold tok. apply nth_error_nth. apply (merge_step_nth _ _ _ _ _ _ _ _ _ _ _ _ _ MS). apply nth_error_nth'. exact H.
Qed.

Lemma replace_text st st' a b r : tok st' r = tok st a ++ tok st b -> (forall n w, length w <= n -> (forall s, In s w -> tok st' (fst s) = tok st (fst s)) -> text_of st' (replace a b r w) = text_of st w).
Proof.
  intros E. induction n as [|n IH]; intros w L H; [destruct w; [reflexivity|cbn in L; lia]|]. destruct w as [|x w1]; [reflexivity|]. cbn [replace]. destruct w1 as [|y w2].
  { cbn [text_of flat_map]. rewrite H by (left; reflexivity). reflexivity. }
  cbn [length] in L. destruct (N.eqb (fst x) a && N.eqb (fst y) b) eqn:M.
  - apply andb_prop in M. destruct M as [M1 M2]. apply N.eqb_eq in M1, M2. cbn [text_of flat_map fst]. fold (text_of st' (replace a b r w2)) (text_of st w2). rewrite IH; [|lia|intros s Hs; apply H; cbn; auto]. rewrite E, M1, M2, app_assoc. reflexivity.
  - change (text_of st' (x :: replace a b r (y :: w2))) with (tok st' (fst x) ++ text_of st' (replace a b r (y :: w2))). rewrite IH; [|cbn [length]; lia|intros s Hs; apply H; right; exact Hs]. rewrite H by (left; reflexivity). reflexivity.
Qed.

Lemma kinv_step tr counts w0 toks0 texts len U M st top q st' ta tb t r wtu : tr_prefix tr = None ->
  ginv counts w0 st -> finv tr counts len U M st -> kinv toks0 texts U st -> Permutation (ts_queue st) (top :: q) -> first_of top q -> exact st top -> enough tr top ->
  merge_step tr counts top q st st' ta tb t r wtu -> ~ In r U /\ kinv toks0 texts (r :: U) st'.
Proof.
  intros NPre G F K PQ FO EX EN MS. assert (IT : In top (ts_queue st)) by (eapply Permutation_in; [symmetry; exact PQ|left; reflexivity]).
  destruct (top_best tr counts len U M st top q (g_len _ _ _ G) F PQ FO EX EN) as [(CA & _ & _) _].
  destruct CA as (w & n & pre & x & y & post & HI & -> & EX1 & EX2 & _). apply combine_nth_in in HI. destruct HI as (i & HI & _). apply nth_error_In in HI.
  pose proof (kinv_pair _ _ _ _ _ _ _ _ K HI) as KP. rewrite EX1, EX2 in KP.
  assert (TA : tok st (fst (tm_pair top)) = ta) by (apply nth_error_nth; exact (ms_a _ _ _ _ _ _ _ _ _ _ _ MS)).
  assert (TB : tok st (snd (tm_pair top)) = tb) by (apply nth_error_nth; exact (ms_b _ _ _ _ _ _ _ _ _ _ _ MS)).
  assert (ET : t = ta ++ tb).
  { destruct (ms_joined _ _ _ _ _ _ _ _ _ _ _ MS) as [(p & rest & X & _)|[_ X]]; [congruence|exact X]. }
  assert (TR : tok st' r = t) by (apply nth_error_nth; exact (ms_r _ _ _ _ _ _ _ _ _ _ _ MS)).
  assert (NR : ~ In r U).
  { intros X. pose proof (k_used _ _ _ _ K r X) as Y. rewrite <- (merge_step_tok _ _ _ _ _ _ _ _ _ _ _ _ MS (k_U _ _ _ _ K r X)), TR, ET in Y. rewrite TA, TB, Y in KP. discriminate. }
  split; [exact NR|].
  assert (WR := words_replaced tr counts _ _ _ _ _ _ _ _ _ _ _ _ F IT MS).
  assert (EM : ts_merges st' = ts_merges st ++ [(tm_pair top, r)]) by exact (ms_merges _ _ _ _ _ _ _ _ _ _ _ MS).
  assert (SG : forall w, seg (ts_merges st') w = replace (fst (tm_pair top)) (snd (tm_pair top)) r (seg (ts_merges st) w)).
  { intros w. rewrite EM. unfold seg. rewrite fold_left_app. reflexivity. }
  assert (TS : forall w s, In w (ts_words st) -> In s w -> tok st' (fst s) = tok st (fst s)).
  { intros w s Hw Hs. apply (merge_step_tok _ _ _ _ _ _ _ _ _ _ _ _ MS). apply (g_syms _ _ _ G w s Hw Hs). }
  constructor.
  - rewrite WR, (k_words _ _ _ _ K), map_map. apply map_ext. intros s. rewrite SG. reflexivity.
  - rewrite WR. pose proof (k_text _ _ _ _ K) as KT. clear - KT TS TR ET TA TB. induction KT as [|w s words texts E KT IH]; [constructor|]. cbn [map]. constructor.
    + rewrite <- E. apply (replace_text st st' _ _ r) with (n := length w); [congruence|lia|]. intros z Hz. apply (TS w z); [left; reflexivity|exact Hz].
    + apply IH. intros w' z Hw. apply TS. right. exact Hw.
  - intros w z Hw Hz. rewrite WR in Hw. apply in_map_iff in Hw. destruct Hw as (w1 & <- & Hw). apply (replace_in _ _ _ _ _ _ (le_n _)) in Hz. destruct Hz as [Hz|(H1 & a & b & H2 & H3 & H4 & H5 & H6)].
    + rewrite (TS w1 z Hw Hz). apply (k_len _ _ _ _ K w1); assumption.
    + rewrite H1, H6, TR, ET, app_length, <- TA, <- TB, <- H4, <- H5. rewrite (k_len _ _ _ _ K w1 a Hw H2), (k_len _ _ _ _ K w1 b Hw H3). reflexivity.
  - intros z [<-|Hz]; rewrite SG.
    + rewrite TR, ET, <- TA, <- TB, KP. cbn [replace]. rewrite EX1, EX2, !N.eqb_refl. cbn [andb]. rewrite app_length, (k_len _ _ _ _ K _ x HI), (k_len _ _ _ _ K _ y HI), EX1, EX2 by (apply in_or_app; right; cbn; auto). reflexivity.
    + rewrite (merge_step_tok _ _ _ _ _ _ _ _ _ _ _ _ MS (k_U _ _ _ _ K z Hz)), (k_used _ _ _ _ K z Hz). reflexivity.
  - intros z [<-|Hz]; [apply nth_error_Some; rewrite (ms_r _ _ _ _ _ _ _ _ _ _ _ MS); discriminate|]. pose proof (k_U _ _ _ _ K z Hz). destruct (ms_toks _ _ _ _ _ _ _ _ _ _ _ MS) as [[_ ->]|[_ ->]]; rewrite ?app_length; lia.
Qed.

Lemma prepared_kinv tr wc al st wtu : plain tr -> prepared tr wc al st wtu ->
  kinv (v_words (ts_voc st)) (map (fun wn => known (v_words (ts_voc st)) (fst wn)) wc) (ids_of (ts_words st)) st.
Proof.
  intros [HP HS] P. set (toks := v_words (ts_voc st)). assert (D : NoDup toks) by apply (g_voc _ _ _ (p_ginv _ _ _ _ _ P)).
  pose proof (p_spelled _ _ _ _ _ P) as SP. fold toks in SP.
  assert (EW : ts_words st = map (fun wn => chars toks (known toks (fst wn))) wc).
  { clear P. induction SP as [|wn w wc ws Sp F IH]; [reflexivity|]. cbn [map]. rewrite <- IH. f_equal. eapply spelled_plain; eassumption. }
  assert (KN : forall s c, In c (known toks s) -> tok st (chr toks c) = [c]).
  { intros s c H. apply filter_In in H. destruct H as [_ H]. apply amem_indexed in H. apply nth_error_nth. apply chr_spec; assumption. }
  assert (SY : forall w z, In w (ts_words st) -> In z w -> exists s c, In c (known toks s) /\ z = (chr toks c, 1)).
  { intros w z Hw Hz. rewrite EW in Hw. apply in_map_iff in Hw. destruct Hw as (wn & <- & _). apply in_map_iff in Hz. destruct Hz as (c & <- & Hz). eauto. }
  constructor; rewrite ?(p_merges _ _ _ _ _ P).
  - rewrite EW, map_map. reflexivity.
  - rewrite EW. clear - KN. induction wc as [|wn wc IH]; [constructor|]. cbn [map]. constructor; [|exact IH].
    specialize (KN (fst wn)). induction (known toks (fst wn)) as [|c s IHs]; [reflexivity|]. cbn [chars map text_of flat_map fst]. fold (chars toks s) (text_of st (chars toks s)). rewrite IHs by (intros d Hd; apply KN; right; exact Hd). rewrite KN by (left; reflexivity). reflexivity.
  - intros w z Hw Hz. destruct (SY w z Hw Hz) as (s & c & H & ->). cbn [fst snd]. rewrite (KN s c H). reflexivity.
  - intros y Hy. apply ids_of_in in Hy. destruct Hy as (w & z & Hw & Hz & <-). destruct (SY w z Hw Hz) as (s & c & H & ->). cbn [fst]. rewrite (KN s c H). reflexivity.
  - intros y Hy. apply ids_of_in in Hy. destruct Hy as (w & z & Hw & Hz & <-). apply (g_syms _ _ _ (p_ginv _ _ _ _ _ P) w z Hw Hz).
Qed.

(** No result is a part of the same or an earlier merge. *)
Definition ordered (ms : list ((N * N) * N)) : Prop :=
  forall p1 a b r p2, ms = p1 ++ ((a, b), r) :: p2 -> forall x, In x (r :: map snd p2) -> x <> a /\ x <> b.
Definition short_merge (tr : trainer) (toks : list str) (m : (N * N) * N) : Prop :=
  let l x := length (nth (N.to_nat x) toks []) in joinable (tr_max_length tr) (fst (fst m), l (fst (fst m))) (snd (fst m), l (snd (fst m))).

Lemma ordered_snoc ms a b r (U : list N) : ordered ms -> (forall p, In p (map fst ms) -> In (fst p) U /\ In (snd p) U) -> In a U -> In b U -> ~ In r U -> ordered (ms ++ [((a, b), r)]).
Proof.
  intros O HU Ua Ub NR p1 a' b' r' p2 E x Hx. destruct p2 as [|z p2 _] using rev_ind.
  - apply app_inj_tail in E. destruct E as [_ E]. injection E as <- <- <-. destruct Hx as [<-|[]]. split; intros ->; contradiction.
  - rewrite app_comm_cons, app_assoc in E. apply app_inj_tail in E. destruct E as [E <-]. rewrite map_app in Hx. cbn [map snd] in Hx.
    assert (X : In x (r' :: map snd p2) \/ x = r) by (destruct Hx as [Hx|Hx]; [left; left; exact Hx|]; apply in_app_or in Hx; destruct Hx as [Hx|[Hx|[]]]; [left; right; exact Hx|right; auto]).
    destruct X as [X| ->]; [apply (O p1 a' b' r' p2 E x X)|]. destruct (HU (a', b')) as [X1 X2]; [rewrite E, map_app, in_app_iff; right; left; reflexivity|]. cbn [fst snd] in *. split; intros ->; contradiction.
Qed.

Lemma plain_loop pop tr wc al st wtu fuel st' : train_heap pop -> plain tr -> prepared tr wc al st wtu -> train_loop pop tr fuel (map snd wc) st = Ok st' ->
  NoDup (map snd (ts_merges st')) /\ (forall x, In x (ids_of (ts_words st)) -> ~ In x (map snd (ts_merges st'))) /\
  NoDup (map fst (ts_merges st')) /\ ordered (ts_merges st') /\ Forall (short_merge tr (v_words (ts_voc st'))) (ts_merges st').
Proof.
  intros HP PL P E. set (U0 := ids_of (ts_words st)). set (toks := v_words (ts_voc st)). set (texts := map (fun wn => known toks (fst wn)) wc).
  set (Inv := fun s : tstate => exists len U M, finv tr (map snd wc) len U M s /\ kinv toks texts U s /\ NoDup (map snd (ts_merges s)) /\ (forall x, In x U0 -> ~ In x (map snd (ts_merges s))) /\
     (forall y, In y U <-> In y U0 \/ In y (map snd (ts_merges s))) /\ (forall p, In p (map fst (ts_merges s)) -> In p M) /\ NoDup (map fst (ts_merges s)) /\ ordered (ts_merges s) /\
     Forall (short_merge tr (v_words (ts_voc s))) (ts_merges s)).
  destruct (train_loop_ind pop tr (map snd wc) (Z.of_N (corpus_size wc)) Inv HP) with (fuel := fuel) (st := st) (st' := st') as (_ & (len & U & M & _ & K & N1 & N2 & N3 & N4 & N5 & N6 & N7) & _).
  - intros s top q G (len & U & M & F & K & N1) PQ. exists len, U, M. split; [eapply finv_repush; eassumption|]. split; [destruct K; constructor; assumption|]. exact N1.
  - intros s top q s' ta tb t r wt G (len & U & M & F & K & N1 & N2 & N3 & N4 & N5 & N6 & N7) LV PQ FO EO EX EN MS.
    destruct (kinv_step tr _ _ toks texts len U M s top q s' ta tb t r wt (proj1 PL) G F K PQ FO EX EN MS) as [NR K'].
    assert (IT : In top (ts_queue s)) by (eapply Permutation_in; [symmetry; exact PQ|left; reflexivity]).
    pose proof (finv_step _ _ _ _ _ _ _ _ _ _ _ _ _ _ _ G F PQ EO MS NR) as F'.
    exists (set_len len r (len (fst (tm_pair top)) + len (snd (tm_pair top)))), (r :: U), (tm_pair top :: M).
    split; [exact F'|]. split; [exact K'|]. rewrite (ms_merges _ _ _ _ _ _ _ _ _ _ _ MS), !map_app. cbn [map fst snd]. split; [|split; [|split; [|split; [|split; [|split]]]]].
    + apply NoDup_app_intro; [exact N1|constructor; [intros []|constructor]|]. intros z Z1 [<-|[]]. apply NR, N3. right. exact Z1.
    + intros z Z1 Z2. apply in_app_or in Z2. destruct Z2 as [Z2|[<-|[]]]; [exact (N2 z Z1 Z2)|]. apply NR, N3. left. exact Z1.
    + intros z. cbn [In]. rewrite N3, in_app_iff. cbn [In]. tauto.
    + intros p Hp. apply in_app_or in Hp. destruct Hp as [Hp|[<-|[]]]; [right; apply N4; exact Hp|left; reflexivity].
    + apply NoDup_app_intro; [exact N5|constructor; [intros []|constructor]|]. intros z Z1 [<-|[]]. destruct (f_queue _ _ _ _ _ _ F top IT) as [X _]. apply X, N4. exact Z1.
    + destruct (f_keys _ _ _ _ _ _ F _ (eo_key _ _ _ _ EO)) as [X1 X2]. rewrite (surjective_pairing (tm_pair top)). apply (ordered_snoc _ _ _ _ U); [exact N6| |exact X1|exact X2|exact NR]. intros p Hp. apply (f_M _ _ _ _ _ _ F), N4. exact Hp.
    + assert (GT : forall i, i < length (v_words (ts_voc s)) -> nth i (v_words (ts_voc s')) [] = nth i (v_words (ts_voc s)) []).
      { intros i Hi. apply nth_error_nth. apply (merge_step_nth _ _ _ _ _ _ _ _ _ _ _ _ _ MS). apply nth_error_nth'. exact Hi. }
      destruct (top_best tr (map snd wc) len U M s top q (g_len _ _ _ G) F PQ FO EX EN) as [(CA & _ & _) _].
      destruct CA as (w & n & pre & x & y & post & HI & -> & EX1 & EX2 & J). apply combine_nth_in in HI. destruct HI as (i & HI & _). apply nth_error_In in HI.
      apply Forall_app. split.
      * rewrite Forall_forall in *. intros m Hm. specialize (N7 m Hm). unfold short_merge in *. cbv zeta in *.
        assert (X : In (fst (fst m)) U /\ In (snd (fst m)) U) by (apply (f_M _ _ _ _ _ _ F), N4, in_map; exact Hm). rewrite !GT by (apply (k_U _ _ _ _ K); apply X). exact N7.
      * constructor; [|constructor]. unfold short_merge. cbv zeta. cbn [fst]. rewrite !GT by (destruct EO; assumption). unfold joinable in *. cbn [snd].
        rewrite (k_len _ _ _ _ K _ x HI), (k_len _ _ _ _ K _ y HI), EX1, EX2 in J by (apply in_or_app; right; cbn; auto). exact J.
  - apply (p_ginv _ _ _ _ _ P).
  - exists (fun _ => 1), U0, []. split; [eapply prepared_finv; exact P|]. split; [apply (prepared_kinv tr wc al st wtu PL P)|]. rewrite (p_merges _ _ _ _ _ P). cbn. split; [constructor|]. split; [tauto|]. split; [intros y; tauto|]. split; [tauto|]. split; [constructor|]. split; [|constructor].
    intros p1 a b r p2 X. destruct p1; discriminate.
  - exact E.
  - auto 8.
Qed.
