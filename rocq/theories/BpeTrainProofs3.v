(** Proofs about training: one merge, invariants that always hold, termination. *)
From Verif Require Import Base ListFacts AMap EncodingModel BpeWordModel BpeModel BpeTrainModel BpeTrainSpec BpeTrainProofs BpeTrainProofs2.
From Coq Require Import ZArith.

(** ** Sums over words *)
Definition zsum (h : nat -> Z) (l : list nat) : Z := fold_right (fun i a => (h i + a)%Z) 0%Z l.
Definition wsum (f : list (N * nat) -> Z) (counts : list N) (words : list (list (N * nat))) : Z :=
  zsum (fun i => (cnt counts i * f (nth i words []))%Z) (seq 0 (length words)).

Lemma zsum_cons h i l : zsum h (i :: l) = (h i + zsum h l)%Z.
Proof. reflexivity. Qed.
Lemma zsum_ext h g l : (forall i, In i l -> h i = g i) -> zsum h l = zsum g l.
Proof. induction l as [|i l IH]; intros H; [reflexivity|]. rewrite !zsum_cons, H by (left; reflexivity). rewrite IH; [reflexivity|]. intros j Hj. apply H. right. exact Hj. Qed.
Lemma zsum_add h g l : zsum (fun i => (h i + g i)%Z) l = (zsum h l + zsum g l)%Z.
Proof. induction l as [|i l IH]; [reflexivity|]. rewrite !zsum_cons, IH. lia. Qed.
Lemma zsum_zero h l : (forall i, In i l -> h i = 0%Z) -> zsum h l = 0%Z.
Proof. induction l as [|i l IH]; intros H; [reflexivity|]. rewrite zsum_cons, H by (left; reflexivity). rewrite IH; [reflexivity|]. intros j Hj. apply H. right. exact Hj. Qed.
Lemma zsum_le h g l : (forall i, In i l -> (h i <= g i)%Z) -> (zsum h l <= zsum g l)%Z.
Proof. induction l as [|i l IH]; intros H; [cbn; lia|]. rewrite !zsum_cons. pose proof (H i (or_introl eq_refl)). assert (zsum h l <= zsum g l)%Z by (apply IH; intros j Hj; apply H; right; exact Hj). lia. Qed.

Lemma zsum_single h i l : NoDup l -> In i l -> zsum (fun j => if j =? i then h j else 0%Z) l = h i.
Proof.
  induction l as [|j l IH]; intros D H; [destruct H|]. inversion D as [|? ? D1 D2]; subst. rewrite zsum_cons. destruct (Nat.eqb_spec j i) as [->|N].
  - rewrite zsum_zero; [lia|]. intros k Hk. destruct (Nat.eqb_spec k i) as [->|]; [contradiction|reflexivity].
  - destruct H as [H|H]; [congruence|]. rewrite IH by assumption. reflexivity.
Qed.

Lemma zsum_indicator h n pos : NoDup pos -> (forall i, In i pos -> i < n) ->
  zsum h pos = zsum (fun i => if existsb (Nat.eqb i) pos then h i else 0%Z) (seq 0 n).
Proof.
  induction pos as [|i pos IH]; intros D H; [symmetry; apply zsum_zero; reflexivity|]. inversion D as [|? ? D1 D2]; subst. rewrite zsum_cons.
  rewrite IH; [|exact D2|intros j Hj; apply H; right; exact Hj].
  rewrite <- (zsum_single h i (seq 0 n)) at 1; [|apply seq_NoDup|apply in_seq; specialize (H i (or_introl eq_refl)); lia]. rewrite <- zsum_add. apply zsum_ext. intros j _.
  cbn [existsb]. destruct (Nat.eqb_spec j i) as [->|N]; cbn [orb]; [|lia].
  replace (existsb (Nat.eqb i) pos) with false; [lia|]. symmetry. destruct (existsb (Nat.eqb i) pos) eqn:E; [|reflexivity]. apply existsb_exists in E. destruct E as (x & HX & E). apply Nat.eqb_eq in E. subst x. contradiction.
Qed.

Definition replaced (c1 c2 r : N) (pos : list nat) (words ws : list (list (N * nat))) : Prop :=
  length ws = length words /\
  forall i, nth_error ws i = if existsb (Nat.eqb i) pos then option_map (replace c1 c2 r) (nth_error words i) else nth_error words i.

Lemma replaced_nth c1 c2 r pos words ws i : replaced c1 c2 r pos words ws ->
  nth i ws [] = if existsb (Nat.eqb i) pos then replace c1 c2 r (nth i words []) else nth i words [].
Proof. intros [_ H]. rewrite !nth_nth_error, H. destruct (existsb _ _); [|reflexivity]. destruct (nth_error words i); reflexivity. Qed.

Lemma wsum_replaced f counts c1 c2 r pos words ws : NoDup pos -> (forall i, In i pos -> i < length words) -> replaced c1 c2 r pos words ws ->
  wsum f counts ws = (wsum f counts words + zsum (fun i => cnt counts i * (f (replace c1 c2 r (nth i words [])) - f (nth i words []))) pos)%Z.
Proof.
  intros D H R. unfold wsum. rewrite (proj1 R), (zsum_indicator _ (length words) pos D H), <- zsum_add. apply zsum_ext. intros i _.
  rewrite (replaced_nth _ _ _ _ _ _ _ R). destruct (existsb _ _); lia.
Qed.

Lemma net_word_changes counts p c1 c2 r mx words i :
  net counts p (word_changes c1 c2 r mx words i) = (cnt counts i * net_changes p (snd (word_merge c1 c2 r mx None (nth i words []))))%Z.
Proof.
  unfold word_changes. induction (snd (word_merge c1 c2 r mx None (nth i words []))) as [|c l IH]; [cbn; lia|]. cbn [map]. rewrite net_cons, IH. cbn [fst snd].
  change (net_changes p (c :: l)) with ((if pair_eqb p (fst c) then snd c else 0) + net_changes p l)%Z. destruct (pair_eqb p (fst c)); lia.
Qed.
Lemma mag_word_changes counts c1 c2 r mx words i :
  mag counts (word_changes c1 c2 r mx words i) = (cnt counts i * Z.of_nat (length (snd (word_merge c1 c2 r mx None (nth i words [])))))%Z.
Proof.
  unfold word_changes. induction (snd (word_merge c1 c2 r mx None (nth i words []))) as [|c l IH]; [cbn; lia|]. cbn [map length]. rewrite mag_cons, IH. cbn [snd]. lia.
Qed.
Lemma net_flat counts p f pos : net counts p (flat_map f pos) = zsum (fun i => net counts p (f i)) pos.
Proof. induction pos as [|i pos IH]; [reflexivity|]. cbn [flat_map]. rewrite net_app', IH. reflexivity. Qed.
Lemma mag_flat counts f pos : mag counts (flat_map f pos) = zsum (fun i => mag counts (f i)) pos.
Proof. induction pos as [|i pos IH]; [reflexivity|]. cbn [flat_map]. rewrite mag_app, IH. reflexivity. Qed.

Definition wlen (w : list (N * nat)) : Z := Z.of_nat (length w).

Lemma mag_bound counts c1 c2 r mx pos words ws : NoDup pos -> (forall i, In i pos -> i < length words) -> replaced c1 c2 r pos words ws ->
  (mag counts (flat_map (word_changes c1 c2 r mx words) pos) <= 4 * (wsum wlen counts words - wsum wlen counts ws))%Z.
Proof.
  intros D H R. rewrite (wsum_replaced _ _ _ _ _ _ _ _ D H R), mag_flat.
  assert (G : (zsum (fun i => mag counts (word_changes c1 c2 r mx words i)) pos <=
    zsum (fun i => - 4 * (cnt counts i * (wlen (replace c1 c2 r (nth i words [])) - wlen (nth i words [])))) pos)%Z).
  { apply zsum_le. intros i _. rewrite mag_word_changes. pose proof (word_merge_changes_len c1 c2 r mx _ (nth i words []) None (le_n _)). pose proof (cnt_nonneg counts i). unfold wlen. nia. }
  assert (X : forall k h l, (zsum (fun i => k * h i) l = k * zsum h l)%Z).
  { intros k h l. induction l as [|j l IH]; [cbn; lia|]. rewrite !zsum_cons, IH. lia. }
  rewrite X in G. lia.
Qed.

Definition nsum (h : nat -> nat) (l : list nat) : nat := list_sum (map h l).

Lemma total_len_seq words : total_len words = nsum (fun i => length (nth i words [])) (seq 0 (length words)).
Proof.
  unfold total_len, nsum. f_equal. apply nth_error_ext. intros i. rewrite !nth_error_map. destruct (Nat.ltb_spec i (length words)) as [L|L].
  - rewrite (nth_error_nth' words [] L), (nth_error_nth' (seq 0 (length words)) 0) by (rewrite seq_length; exact L). cbn. rewrite seq_nth by exact L. reflexivity.
  - rewrite (proj2 (nth_error_None words i)) by lia. rewrite (proj2 (nth_error_None (seq 0 (length words)) i)) by (rewrite seq_length; lia). reflexivity.
Qed.

Lemma replaced_words_len c1 c2 r pos words ws mx : NoDup pos -> (forall i, In i pos -> i < length words) -> replaced c1 c2 r pos words ws ->
  length (filter new_change (flat_map (word_changes c1 c2 r mx words) pos)) + 2 * total_len ws <= 2 * total_len words.
Proof.
  intros D H R.
  (* as sums of integers with every word counted once *)
  set (ones := repeat 1%N (length words)).
  assert (C1 : forall i, i < length words -> cnt ones i = 1%Z).
  { intros i Hi. unfold cnt, ones. rewrite (nth_error_nth _ _ _ (nth_error_repeat_lt 1%N _ _ Hi)). reflexivity. }
  assert (T : forall ws', length ws' = length words -> Z.of_nat (total_len ws') = wsum wlen ones ws').
  { intros ws' L. rewrite total_len_seq. unfold wsum, nsum, wlen. rewrite L. assert (G : forall i, In i (seq 0 (length words)) -> i < length words) by (intros i Hi; apply in_seq in Hi; lia).
    induction (seq 0 (length words)) as [|i l IH]; [reflexivity|]. cbn [map list_sum fold_right]. rewrite zsum_cons, C1 by (apply G; left; reflexivity).
    change (fold_right Nat.add 0 (map (fun i0 => length (nth i0 ws' [])) l)) with (list_sum (map (fun i0 => length (nth i0 ws' [])) l)).
    specialize (IH (fun j Hj => G j (or_intror Hj))). lia. }
  assert (Q : (Z.of_nat (length (filter new_change (flat_map (word_changes c1 c2 r mx words) pos))) <=
     zsum (fun i => - 2 * (cnt ones i * (wlen (replace c1 c2 r (nth i words [])) - wlen (nth i words [])))) pos)%Z).
  { clear D R T. induction pos as [|i pos IH]; [cbn; lia|]. cbn [flat_map]. rewrite filter_app, app_length, zsum_cons.
    specialize (IH (fun j Hj => H j (or_intror Hj))). rewrite C1 by (apply H; left; reflexivity).
    pose proof (word_merge_new_len c1 c2 r mx _ (nth i words []) None (le_n _)) as B. unfold word_changes at 1.
    assert (F : forall l, length (filter new_change (map (fun c => (c, i)) l)) = length (filter is_new l)).
    { induction l as [|c l IHl]; [reflexivity|]. cbn [map filter]. unfold new_change at 1. cbn [fst]. destruct (is_new c); cbn [length]; congruence. }
    rewrite F. unfold wlen in *. lia. }
  assert (X : forall k h l, (zsum (fun i => k * h i) l = k * zsum h l)%Z).
  { intros k h l. induction l as [|j l IH]; [cbn; lia|]. rewrite !zsum_cons, IH. lia. }
  rewrite X in Q. pose proof (wsum_replaced wlen ones _ _ _ _ _ _ D H R) as E. rewrite <- !T in E by (try reflexivity; exact (proj1 R)). lia.
Qed.

(** ** One merge *)
Record entry_ok (n : nat) (pc : list ((N * N) * Z)) (words : list (list (N * nat))) (e : tmerge) : Prop := mkEok {
  eo_fst : N.to_nat (fst (tm_pair e)) < n; eo_snd : N.to_nat (snd (tm_pair e)) < n;
  eo_key : In (tm_pair e) (map fst pc); eo_nodup : NoDup (tm_pos e); eo_pos : forall i, In i (tm_pos e) -> i < length words }.

Record ginv (counts : list N) (w0 : Z) (st : tstate) : Prop := mkGinv {
  g_voc : vok (ts_voc st);
  g_len : length (ts_words st) = length counts;
  g_syms : forall w s, In w (ts_words st) -> In s w -> N.to_nat (fst s) < length (v_words (ts_voc st)) /\ 1 <= snd s;
  g_queue : forall e, In e (ts_queue st) -> entry_ok (length (v_words (ts_voc st))) (ts_pc st) (ts_words st) e;
  g_pc : forall p, (Z.abs (pair_count (ts_pc st) p) <= 5 * w0 - 4 * wsum wlen counts (ts_words st))%Z;
  g_small : (5 * w0 < 2147483648)%Z }.

Lemma joined_new_token tr a b : joined (tr_prefix tr) a b (new_token tr a b).
Proof.
  assert (SP : forall p s rest, strip_prefix p s = Some rest <-> s = p ++ rest).
  { induction p as [|x p IH]; intros s rest; cbn [strip_prefix app]; [split; congruence|]. destruct s as [|y s]; [split; discriminate|].
    destruct (N.eqb_spec x y) as [->|N]; [rewrite IH; split; [intros ->; reflexivity|congruence]|split; [discriminate|congruence]]. }
  unfold joined, new_token. destruct (tr_prefix tr) as [p|]; [|right; split; [discriminate|reflexivity]].
  destruct (strip_prefix p b) as [rest|] eqn:E; [left; apply SP in E; eauto|]. right. split; [|reflexivity]. intros p' rest H. injection H as <-. intros Hb. apply SP in Hb. congruence.
Qed.

Record merge_step (tr : trainer) (counts : list N) (top : tmerge) (q : list tmerge) (st st' : tstate) (ta tb t : str) (r : N) (wtu : list ((N * N) * list nat)) : Prop := mkMs {
  ms_a : nth_error (v_words (ts_voc st)) (N.to_nat (fst (tm_pair top))) = Some ta;
  ms_b : nth_error (v_words (ts_voc st)) (N.to_nat (snd (tm_pair top))) = Some tb;
  ms_joined : joined (tr_prefix tr) ta tb t;
  ms_voc : vok (ts_voc st');
  ms_toks : In t (v_words (ts_voc st)) /\ v_words (ts_voc st') = v_words (ts_voc st) \/
            ~ In t (v_words (ts_voc st)) /\ v_words (ts_voc st') = v_words (ts_voc st) ++ [t];
  ms_r : nth_error (v_words (ts_voc st')) (N.to_nat r) = Some t;
  ms_words : replaced (fst (tm_pair top)) (snd (tm_pair top)) r (tm_pos top) (ts_words st) (ts_words st');
  ms_pc : forall p, pair_count (ts_pc st') p =
     (pair_count (ts_pc st) p + net counts p (flat_map (word_changes (fst (tm_pair top)) (snd (tm_pair top)) r (tr_max_length tr) (ts_words st)) (tm_pos top)))%Z;
  ms_keys : forall p, In p (map fst (ts_pc st')) <-> In p (map fst (ts_pc st)) \/
     In p (map (fun c => fst (fst c)) (flat_map (word_changes (fst (tm_pair top)) (snd (tm_pair top)) r (tr_max_length tr) (ts_words st)) (tm_pos top)));
  ms_sets : sets_ok wtu;
  ms_at : forall p i, at_word wtu p i <-> In ((p, 1%Z), i) (flat_map (word_changes (fst (tm_pair top)) (snd (tm_pair top)) r (tr_max_length tr) (ts_words st)) (tm_pos top));
  ms_wkeys : forall p, In p (map fst wtu) <-> exists i, In ((p, 1%Z), i) (flat_map (word_changes (fst (tm_pair top)) (snd (tm_pair top)) r (tr_max_length tr) (ts_words st)) (tm_pos top));
  ms_wlen : length wtu <= length (filter new_change (flat_map (word_changes (fst (tm_pair top)) (snd (tm_pair top)) r (tr_max_length tr) (ts_words st)) (tm_pos top)));
  ms_queue : ts_queue st' = q ++ new_entries (ts_pc st') wtu;
  ms_merges : ts_merges st' = ts_merges st ++ [(tm_pair top, r)] }.

Lemma word_changes_unit n c1 c2 r mx words pos : (forall i, In i pos -> i < n) -> unit_changes n (flat_map (word_changes c1 c2 r mx words) pos).
Proof.
  intros H. apply Forall_forall. intros [[p d] i] HI. apply in_flat_map in HI. destruct HI as (j & Hj & HI). apply in_map_iff in HI. destruct HI as (c & E & HI). injection E as -> <-.
  destruct (word_merge_changes_in _ _ _ _ _ _ _ (le_n _) _ _ HI) as (D & _). cbn [fst snd]. split; [exact D|apply H; exact Hj].
Qed.

Lemma do_merge_spec tr counts w0 st top q : ginv counts w0 st ->
  (forall w, (0 <= wsum wlen counts w)%Z) -> entry_ok (length (v_words (ts_voc st))) (ts_pc st) (ts_words st) top ->
  exists st' ta tb t r wtu, do_merge tr counts top q st = Ok st' /\ merge_step tr counts top q st st' ta tb t r wtu.
Proof.
  intros [V L Sy Q P Sm] WP [E1 E2 E3 E4 E5]. unfold do_merge. destruct (tm_pair top) as [c1 c2] eqn:ET. cbn [fst snd] in E1, E2.
  destruct (nth_error (v_words (ts_voc st)) (N.to_nat c1)) as [ta|] eqn:EA; [|apply nth_error_None in EA; lia].
  destruct (nth_error (v_words (ts_voc st)) (N.to_nat c2)) as [tb|] eqn:EB; [|apply nth_error_None in EB; lia].
  cbn [of_option bind]. set (t := new_token tr ta tb). set (v := ts_voc st) in *.
  set (r := match aget str_eqb t (v_ids v) with Some i => i | None => N.of_nat (length (v_words v)) end).
  set (v' := if amem str_eqb t (v_ids v) then v else mkVoc (aset str_eqb t r (v_ids v)) (v_words v ++ [t])).
  assert (EV : v' = voc_add v t).
  { unfold v', voc_add, r. unfold amem. destruct (aget str_eqb t (v_ids v)); reflexivity. }
  destruct (voc_add_spec v t V) as [V' A]. rewrite <- EV in V', A.
  assert (R : nth_error (v_words v') (N.to_nat r) = Some t).
  { destruct A as [[A1 A2]|[A1 A2]]; rewrite A2; unfold r.
    - destruct (aget str_eqb t (v_ids v)) as [i|] eqn:EI; [apply (vok_get _ _ _ V); exact EI|]. exfalso. apply (vok_mem v t V) in A1. unfold amem in A1. rewrite EI in A1. discriminate.
    - destruct (aget str_eqb t (v_ids v)) as [i|] eqn:EI.
      + apply (vok_get _ _ _ V) in EI. exfalso. apply A1. eapply nth_error_In. exact EI.
      + rewrite Nat2N.id, nth_error_app2, Nat.sub_diag by lia. reflexivity. }
  destruct (merge_at_spec c1 c2 r (tr_max_length tr) (tm_pos top) (ts_words st) E4 E5) as (ws & EM & LW & GW). rewrite EM. cbn [bind].
  assert (RW : replaced c1 c2 r (tm_pos top) (ts_words st) ws) by (split; assumption).
  set (chs := flat_map (word_changes c1 c2 r (tr_max_length tr) (ts_words st)) (tm_pos top)) in *.
  pose proof (mag_bound counts c1 c2 r (tr_max_length tr) _ _ _ E4 E5 RW) as MB. fold chs in MB. pose proof (WP ws) as W1.
  destruct (apply_changes_spec counts chs (ts_pc st) []) as (pc & wtu & EP & H1 & H2 & H3 & H4 & H5 & H6).
  { unfold chs. apply word_changes_unit. intros i Hi. rewrite <- L. apply E5. exact Hi. }
  { intros p. specialize (P p). lia. }
  { split; [constructor|intros p l; cbn; discriminate]. }
  rewrite EP. cbn [bind]. rewrite push_entries_spec.
  2: { intros p Hp. apply H2. apply H5 in Hp. destruct Hp as [[]|(i & Hp)]. right. apply in_map_iff. exists ((p, 1%Z), i). auto. }
  cbn [bind]. do 6 eexists. split; [reflexivity|]. constructor; cbn [ts_voc ts_words ts_pc ts_queue ts_merges]; rewrite ?ET; cbn [fst snd].
  - exact EA.
  - exact EB.
  - apply joined_new_token.
  - exact V'.
  - exact A.
  - exact R.
  - exact RW.
  - exact H1.
  - exact H2.
  - exact H3.
  - intros p i. rewrite H4. fold chs. split; [|auto]. intros [(l & X & _)|X]; [discriminate|exact X].
  - intros p. rewrite H5. fold chs. cbn. tauto.
  - fold chs. cbn [length] in H6. exact H6.
  - reflexivity.
  - reflexivity.
Qed.

Lemma replace_in a b r : forall n w s, length w <= n -> In s (replace a b r w) -> In s w \/ (fst s = r /\ exists x y, In x w /\ In y w /\ fst x = a /\ fst y = b /\ snd s = snd x + snd y).
Proof.
  induction n as [|n IH]; intros w s L H; [destruct w; [destruct H|cbn in L; lia]|]. destruct w as [|x w1]; [destruct H|]. cbn [replace] in H. destruct w1 as [|y w2]; [left; exact H|].
  cbn [length] in L. destruct (N.eqb (fst x) a && N.eqb (fst y) b) eqn:M.
  - apply andb_prop in M. destruct M as [M1 M2]. apply N.eqb_eq in M1, M2. destruct H as [<-|H].
    + right. split; [reflexivity|]. exists x, y. cbn. auto 6.
    + destruct (IH w2 s ltac:(lia) H) as [H'|(H1 & u & v & H2 & H3 & H4)]; [left; cbn; auto|]. right. split; [exact H1|]. exists u, v. cbn. auto 6.
  - destruct H as [<-|H]; [left; left; reflexivity|]. destruct (IH (y :: w2) s ltac:(cbn [length]; lia) H) as [H'|(H1 & u & v & H2 & H3 & H4)]; [left; right; exact H'|].
    right. split; [exact H1|]. exists u, v. split; [right; exact H2|]. split; [right; exact H3|exact H4].
Qed.

Lemma replaced_words c1 c2 r pos words ws w : replaced c1 c2 r pos words ws -> In w ws -> In w words \/ exists w0, In w0 words /\ w = replace c1 c2 r w0.
Proof.
  intros [_ G] H. apply In_nth_error in H. destruct H as (i & H). rewrite G in H. destruct (existsb _ _); [|left; eapply nth_error_In; exact H].
  destruct (nth_error words i) as [w0|] eqn:E; [|discriminate]. injection H as <-. right. exists w0. split; [eapply nth_error_In; exact E|reflexivity].
Qed.

Lemma merge_step_ginv tr counts w0 top q st st' ta tb t r wtu : ginv counts w0 st -> (forall w, (0 <= wsum wlen counts w)%Z) ->
  entry_ok (length (v_words (ts_voc st))) (ts_pc st) (ts_words st) top ->
  (forall e, In e q -> In e (ts_queue st)) -> merge_step tr counts top q st st' ta tb t r wtu -> ginv counts w0 st'.
Proof.
  intros [V L Sy Q P Sm] WP [E1 E2 E3 E4 E5] QI M.
  assert (GR : length (v_words (ts_voc st)) <= length (v_words (ts_voc st'))) by (destruct (ms_toks _ _ _ _ _ _ _ _ _ _ _ M) as [[_ ->]|[_ ->]]; rewrite ?app_length; lia).
  assert (LR : N.to_nat r < length (v_words (ts_voc st'))) by (apply nth_error_Some; rewrite (ms_r _ _ _ _ _ _ _ _ _ _ _ M); discriminate).
  pose proof (ms_words _ _ _ _ _ _ _ _ _ _ _ M) as RW.
  set (chs := flat_map (word_changes (fst (tm_pair top)) (snd (tm_pair top)) r (tr_max_length tr) (ts_words st)) (tm_pos top)).
  pose proof (mag_bound counts _ _ r (tr_max_length tr) _ _ _ E4 E5 RW) as MB. fold chs in MB.
  assert (IC : forall p d i, In ((p, d), i) chs -> N.to_nat (fst p) < length (v_words (ts_voc st')) /\ N.to_nat (snd p) < length (v_words (ts_voc st')) /\ In i (tm_pos top)).
  { intros p d i H. apply in_flat_map in H. destruct H as (j & Hj & H). apply in_map_iff in H. destruct H as (c & E & H). injection E as -> <-.
    destruct (word_merge_changes_in _ _ _ _ _ _ _ (le_n _) _ _ H) as (_ & A & B & _).
    assert (G : forall x, x = r \/ of_word (nth j (ts_words st) []) x \/ (exists s, @None (N * nat) = Some s /\ x = fst s) -> N.to_nat x < length (v_words (ts_voc st'))).
    { intros x [->|[X|(s & X & _)]]; [exact LR| |discriminate]. apply in_map_iff in X. destruct X as (s & <- & X).
      destruct (Sy (nth j (ts_words st) []) s) as [Y _]; [apply nth_In, E5, Hj|exact X|lia]. }
    split; [apply G; exact A|]. split; [apply G; exact B|exact Hj]. }
  constructor.
  - exact (ms_voc _ _ _ _ _ _ _ _ _ _ _ M).
  - rewrite (proj1 RW). exact L.
  - intros w s Hw Hs. destruct (replaced_words _ _ _ _ _ _ _ RW Hw) as [H|(w1 & H & ->)].
    + destruct (Sy w s H Hs). lia.
    + apply (replace_in _ _ _ _ _ _ (le_n _)) in Hs. destruct Hs as [Hs|(H1 & x & y & H2 & H3 & H4 & H5 & H6)]; [destruct (Sy w1 s H Hs); lia|].
      destruct (Sy w1 x H H2), (Sy w1 y H H3). rewrite H1. lia.
  - intros e He. rewrite (ms_queue _ _ _ _ _ _ _ _ _ _ _ M) in He. apply in_app_or in He. destruct He as [He|He].
    + destruct (Q e (QI e He)) as [X1 X2 X3 X4 X5]. constructor; [lia|lia|apply (ms_keys _ _ _ _ _ _ _ _ _ _ _ M); auto|exact X4|rewrite (proj1 RW); exact X5].
    + apply new_entries_in in He. destruct He as (H1 & H2 & H3).
      assert (G : aget pair_eqb (tm_pair e) wtu = Some (tm_pos e)) by (apply In_aget; [apply pair_eqb_eq|apply (ms_sets _ _ _ _ _ _ _ _ _ _ _ M)|exact H3]).
      assert (K : exists i, In ((tm_pair e, 1%Z), i) chs) by (apply (ms_wkeys _ _ _ _ _ _ _ _ _ _ _ M); apply (in_map fst) in H3; exact H3).
      destruct K as (i & K). destruct (IC _ _ _ K) as (K1 & K2 & _). constructor; [exact K1|exact K2| | |].
      * apply (ms_keys _ _ _ _ _ _ _ _ _ _ _ M). right. apply in_map_iff. exists ((tm_pair e, 1%Z), i). auto.
      * apply (proj2 (ms_sets _ _ _ _ _ _ _ _ _ _ _ M)) in G. exact G.
      * intros j Hj. rewrite (proj1 RW). apply E5. assert (J : at_word wtu (tm_pair e) j) by (exists (tm_pos e); auto).
        apply (ms_at _ _ _ _ _ _ _ _ _ _ _ M) in J. apply IC in J. apply J.
  - intros p. rewrite (ms_pc _ _ _ _ _ _ _ _ _ _ _ M). fold chs. specialize (P p).
    assert (N : (Z.abs (net counts p chs) <= mag counts chs)%Z).
    { assert (U : unit_changes (length counts) chs) by (apply word_changes_unit; intros i Hi; rewrite <- L; apply E5; exact Hi).
      clear - U. induction U as [|[[p' d] i] l [D _] U IH]; [cbn; lia|]. rewrite net_cons, mag_cons. cbn [fst snd] in *. pose proof (cnt_nonneg counts i). destruct (pair_eqb p p'); [|lia]. destruct D as [-> | ->]; lia. }
    lia.
  - exact Sm.
Qed.

Definition measure (st : tstate) : nat := length (ts_queue st) + 3 * total_len (ts_words st).

Lemma merge_step_measure tr counts top q st st' ta tb t r wtu :
  entry_ok (length (v_words (ts_voc st))) (ts_pc st) (ts_words st) top -> S (length q) = length (ts_queue st) ->
  merge_step tr counts top q st st' ta tb t r wtu -> measure st' < measure st.
Proof.
  intros [E1 E2 E3 E4 E5] LQ M. unfold measure. rewrite (ms_queue _ _ _ _ _ _ _ _ _ _ _ M), app_length.
  pose proof (new_entries_len (ts_pc st') wtu). pose proof (ms_wlen _ _ _ _ _ _ _ _ _ _ _ M) as H1.
  pose proof (replaced_words_len _ _ _ _ _ _ (tr_max_length tr) E4 E5 (ms_words _ _ _ _ _ _ _ _ _ _ _ M)) as H2. lia.
Qed.

(** ** Termination *)
Definition inexact (st : tstate) : list tmerge := filter (fun e => negb (Z.eqb (tm_count e) (as_u64 (pair_count (ts_pc st) (tm_pair e))))) (ts_queue st).

Lemma wsum_nonneg counts w : (0 <= wsum wlen counts w)%Z.
Proof.
  unfold wsum. induction (seq 0 (length w)) as [|i l IH]; [cbn; lia|]. rewrite zsum_cons. cbv beta. pose proof (cnt_nonneg counts i) as C.
  assert (L : (0 <= wlen (nth i w []))%Z) by (unfold wlen; lia). pose proof (Z.mul_nonneg_nonneg _ _ C L). lia.
Qed.

Lemma filter_perm_len {A} (f : A -> bool) l l' : Permutation l l' -> length (filter f l) = length (filter f l').
Proof. induction 1 as [|x l l' P IH|x y l|l l' l'' P1 IH1 P2 IH2]; cbn; [reflexivity|destruct (f x); cbn; lia|destruct (f x), (f y); cbn; reflexivity|lia]. Qed.

Lemma filter_le {A} (f : A -> bool) l : length (filter f l) <= length l.
Proof. induction l as [|x l IH]; cbn; [lia|]. destruct (f x); cbn; lia. Qed.

Definition repushed (st : tstate) (top : tmerge) (q : list tmerge) : tstate :=
  mkTs (ts_voc st) (ts_words st) (ts_pc st) (q ++ [mkTm (tm_pair top) (as_u64 (pair_count (ts_pc st) (tm_pair top))) (tm_pos top)]) (ts_merges st).

Lemma pair_count_get pc p : In p (map fst pc) -> aget pair_eqb p pc = Some (pair_count pc p).
Proof. intros H. destruct (aget_some_key _ pair_eqb_eq p pc H) as (n & E). unfold pair_count. rewrite E. reflexivity. Qed.

Lemma repushed_ginv counts w0 st top q : ginv counts w0 st -> Permutation (ts_queue st) (top :: q) -> ginv counts w0 (repushed st top q).
Proof.
  intros [V L Sy Q P Sm] PQ. constructor; cbn [repushed ts_voc ts_words ts_pc ts_queue ts_merges]; try assumption.
  intros e He. apply in_app_or in He. destruct He as [He|[<-|[]]].
  - apply Q. eapply Permutation_in; [symmetry; exact PQ|]. right. exact He.
  - destruct (Q top) as [X1 X2 X3 X4 X5]; [eapply Permutation_in; [symmetry; exact PQ|left; reflexivity]|]. constructor; assumption.
Qed.

(** A turn of the loop, as the loop sees it. *)
Lemma train_loop_turn pop tr counts w0 fuel st : train_heap pop -> ginv counts w0 st ->
  (tr_vocab_size tr <= length (v_words (ts_voc st)) /\ train_loop pop tr (S fuel) counts st = Ok st) \/
  (length (v_words (ts_voc st)) < tr_vocab_size tr /\
   ((ts_queue st = [] /\ train_loop pop tr (S fuel) counts st = Ok st) \/
    exists top q, Permutation (ts_queue st) (top :: q) /\
      (forall e', In e' q -> (tm_count e' < tm_count top)%Z \/ (tm_count e' = tm_count top /\ pair_le (tm_pair top) (tm_pair e'))) /\
      entry_ok (length (v_words (ts_voc st))) (ts_pc st) (ts_words st) top /\
      ((tm_count top <> as_u64 (pair_count (ts_pc st) (tm_pair top)) /\
        train_loop pop tr (S fuel) counts st = train_loop pop tr fuel counts (repushed st top q)) \/
       (tm_count top = as_u64 (pair_count (ts_pc st) (tm_pair top)) /\
        (((tm_count top < 1 \/ tm_count top < Z.of_N (tr_min_frequency tr))%Z /\ train_loop pop tr (S fuel) counts st = Ok st) \/
         ((1 <= tm_count top /\ Z.of_N (tr_min_frequency tr) <= tm_count top)%Z /\
          exists st' ta tb t r wtu, do_merge tr counts top q st = Ok st' /\ merge_step tr counts top q st st' ta tb t r wtu /\
            train_loop pop tr (S fuel) counts st = train_loop pop tr fuel counts st')))))).
Proof.
  intros [H0 HP] G. cbn [train_loop]. rewrite (vok_len _ (g_voc _ _ _ G)). destruct (Nat.leb_spec (tr_vocab_size tr) (length (v_words (ts_voc st)))) as [C|C]; [left; auto|]. right. split; [exact C|].
  destruct (ts_queue st) as [|e0 q0] eqn:EQ; [left; rewrite H0; auto|]. right. destruct (HP (e0 :: q0)) as (top & q & EP & PQ & MX); [discriminate|]. rewrite <- EQ in EP, PQ.
  exists top, q. rewrite <- EQ. split; [exact PQ|]. split; [exact MX|].
  assert (EO : entry_ok (length (v_words (ts_voc st))) (ts_pc st) (ts_words st) top) by (apply (g_queue _ _ _ G); eapply Permutation_in; [symmetry; exact PQ|left; reflexivity]).
  split; [exact EO|]. rewrite EP. rewrite (pair_count_get _ _ (eo_key _ _ _ _ EO)). cbn [of_option bind].
  destruct (Z.eqb_spec (tm_count top) (as_u64 (pair_count (ts_pc st) (tm_pair top)))) as [E|E]; cbn [negb]; [|left; split; [exact E|reflexivity]]. right. split; [exact E|].
  destruct (Z.ltb_spec (tm_count top) 1) as [C1|C1]; cbn [orb]; [left; auto|]. destruct (Z.ltb_spec (tm_count top) (Z.of_N (tr_min_frequency tr))) as [C2|C2]; [left; auto|]. right. split; [lia|].
  destruct (do_merge_spec tr counts w0 st top q G (wsum_nonneg counts) EO) as (st' & ta & tb & t & r & wtu & ED & M). exists st', ta, tb, t, r, wtu. rewrite ED. auto.
Qed.

Lemma train_loop_total pop tr counts w0 : train_heap pop -> forall fuel st, ginv counts w0 st ->
  measure st * (measure st + 1) + length (inexact st) < fuel -> exists st', train_loop pop tr fuel counts st = Ok st'.
Proof.
  intros HP. induction fuel as [|fuel IH]; intros st G F; [lia|].
  destruct (train_loop_turn pop tr counts w0 fuel st HP G) as [[_ E]|[_ [[_ E]|(top & q & PQ & _ & EO & [[NE E]|[EQ [[_ E]|[_ (st' & ta & tb & t & r & wtu & _ & M & E)]]]])]]]; rewrite E; eauto.
  - apply IH; [apply repushed_ginv; assumption|]. assert (MS : measure (repushed st top q) = measure st).
    { unfold measure, repushed. cbn [ts_queue ts_words]. rewrite (Permutation_length PQ), app_length. cbn [length]. lia. }
    rewrite MS. unfold inexact in *. cbn [repushed ts_queue ts_pc]. rewrite (filter_perm_len _ _ _ PQ) in F. rewrite filter_app, app_length. cbn [filter tm_count tm_pair] in *.
    rewrite Z.eqb_refl. cbn [negb length]. destruct (Z.eqb_spec (tm_count top) (as_u64 (pair_count (ts_pc st) (tm_pair top)))) as [E'|_]; [contradiction|]. cbn [negb length] in F. lia.
  - assert (MS : measure st' < measure st) by (eapply merge_step_measure; [exact EO| |exact M]; rewrite (Permutation_length PQ); reflexivity).
    apply IH.
    + eapply merge_step_ginv; [exact G|apply wsum_nonneg|exact EO| |exact M]. intros e He. eapply Permutation_in; [symmetry; exact PQ|right; exact He].
    + assert (length (inexact st') <= measure st').
      { unfold inexact, measure. pose proof (filter_le (fun e => negb (Z.eqb (tm_count e) (as_u64 (pair_count (ts_pc st') (tm_pair e))))) (ts_queue st')). lia. }
      nia.
Qed.
