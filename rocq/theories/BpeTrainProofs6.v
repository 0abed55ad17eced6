(** Proofs about training: the merges learnt. *)
From Verif Require Import Base ListFacts AMap EncodingModel BpeWordModel BpeModel BpeTrainModel BpeTrainSpec BpeTrainProofs BpeTrainProofs2 BpeTrainProofs3 BpeTrainProofs4 BpeTrainProofs5.
From Coq Require Import ZArith.

Lemma frequency_wsum a b : forall words counts, length words = length counts ->
  Z.of_N (frequency a b (combine words counts)) = wsum (occ (a, b)) counts words.
Proof.
  induction words as [|w words IH]; intros [|n counts] L; try discriminate; [reflexivity|]. cbn [combine]. rewrite wsum_cons, <- IH by (cbn in L; lia).
  change (frequency a b ((w, n) :: combine words counts)) with (n * adjacent a b w + frequency a b (combine words counts))%N. unfold occ. cbn [fst snd]. lia.
Qed.

Lemma replace_none a b r : forall w, occ (a, b) w = 0%Z -> replace a b r w = w.
Proof.
  induction w as [|x w IH]; intros H; [reflexivity|]. cbn [replace]. destruct w as [|y w]; [reflexivity|]. rewrite occ_cons2, hit_eq in H. pose proof (occ_nonneg (a, b) (y :: w)).
  destruct (N.eqb (fst x) a && N.eqb (fst y) b) eqn:E.
  - apply andb_prop in E. destruct E as [E1 E2]. apply N.eqb_eq in E1, E2. rewrite E1, E2, (proj2 (pair_eqb_eq (a, b) (a, b)) eq_refl) in H. lia.
  - rewrite IH; [reflexivity|]. destruct (pair_eqb (a, b) (fst x, fst y)); lia.
Qed.

Lemma combine_nth_in {A B} (l : list A) (l' : list B) a b : In (a, b) (combine l l') -> exists i, nth_error l i = Some a /\ nth_error l' i = Some b.
Proof.
  revert l'. induction l as [|x l IH]; intros [|y l'] H; try destruct H.
  - injection H as -> ->. exists 0. auto.
  - destruct (IH l' H) as (i & I1 & I2). exists (S i). auto.
Qed.
Lemma nth_combine_in {A B} (l : list A) : forall (l' : list B) i a b, nth_error l i = Some a -> nth_error l' i = Some b -> In (a, b) (combine l l').
Proof.
  induction l as [|x l IH]; intros [|y l'] [|i] a b H1 H2; try discriminate; cbn in *; [injection H1 as ->; injection H2 as ->; left; reflexivity|]. right. eapply IH; eassumption.
Qed.

Lemma combine_map_l {A B} (f : A -> A) : forall (l : list A) (l' : list B), map (fun wn => (f (fst wn), snd wn)) (combine l l') = combine (map f l) l'.
Proof. induction l as [|x l IH]; intros [|y l']; cbn; try reflexivity. f_equal. apply IH. Qed.

Section fresh.
  Context (pop : list tmerge -> option (tmerge * list tmerge)) (HP : train_heap pop) (tr : trainer) (counts : list N) (w0 : Z).

  Notation seg st := (combine (ts_words st) counts).

  Lemma allowed_joinable len x y : snd x = len (fst x) -> snd y = len (fst y) -> allowed (tr_max_length tr) len (fst x, fst y) <-> joinable (tr_max_length tr) x y.
  Proof.
    intros H1 H2. unfold allowed, joinable, below. cbn [fst snd]. rewrite H1, H2. destruct (tr_max_length tr); [rewrite Nat.ltb_lt; reflexivity|tauto].
  Qed.

  Lemma candidate_allowed len U M st a b : finv tr counts len U M st -> candidate (tr_max_length tr) (seg st) a b -> allowed (tr_max_length tr) len (a, b) /\ ~ In (a, b) M.
  Proof.
    intros F (w & n & pre & x & y & post & HI & -> & <- & <- & J). apply combine_nth_in in HI. destruct HI as (i & HI & _). apply nth_error_In in HI. split.
    - apply allowed_joinable; [apply (f_syms _ _ _ _ _ _ F _ _ HI); apply in_or_app; right; cbn; auto|apply (f_syms _ _ _ _ _ _ F _ _ HI); apply in_or_app; right; cbn; auto|exact J].
    - intros X. pose proof (f_merged _ _ _ _ _ _ F _ _ X HI). pose proof (occ_of (fst x, fst y) pre x y post eq_refl eq_refl). lia.
  Qed.

  Lemma candidate_entry len U M st a b : length (ts_words st) = length counts -> finv tr counts len U M st -> candidate (tr_max_length tr) (seg st) a b -> (0 < frequency a b (seg st))%N ->
    exists e, In e (ts_queue st) /\ tm_pair e = (a, b) /\ (Z.of_N (frequency a b (seg st)) <= tm_count e)%Z.
  Proof.
    intros L F CA FQ. destruct (candidate_allowed _ _ _ _ _ _ F CA) as [AL NM]. pose proof (frequency_wsum a b (ts_words st) counts L) as E.
    destruct (f_complete _ _ _ _ _ _ F (a, b) NM AL) as (e & He & Ep); [lia|]. exists e. split; [exact He|]. split; [exact Ep|]. destruct (f_queue _ _ _ _ _ _ F e He) as (_ & _ & X). rewrite Ep in X. lia.
  Qed.

  Lemma top_best len U M st top q : length (ts_words st) = length counts -> finv tr counts len U M st ->
    Permutation (ts_queue st) (top :: q) -> first_of top q -> exact st top -> enough tr top ->
    best tr (seg st) (fst (tm_pair top)) (snd (tm_pair top)) /\ Z.of_N (frequency (fst (tm_pair top)) (snd (tm_pair top)) (seg st)) = tm_count top.
  Proof.
    intros L F PQ FO EX EN. assert (IT : In top (ts_queue st)) by (eapply Permutation_in; [symmetry; exact PQ|left; reflexivity]).
    destruct (f_queue _ _ _ _ _ _ F top IT) as (F1 & F2 & F3). pose proof (f_pc _ _ _ _ _ _ F _ F1 F2) as PC.
    assert (CT : tm_count top = wsum (occ (tm_pair top)) counts (ts_words st)).
    { rewrite EX, PC. apply as_u64_nonneg. apply occ_wsum_nonneg. }
    destruct (tm_pair top) as [a b] eqn:ET. cbn [fst snd]. pose proof (frequency_wsum a b (ts_words st) counts L) as FW. destruct EN as [E1 E2]. split; [|lia]. split; [|split].
    - destruct (wsum_pos (occ (a, b)) counts (ts_words st) (occ_nonneg _)) as (i & I1 & _ & I3); [lia|]. destruct (occ_in _ _ I3) as (pre & x & y & post & EW & X & Y). cbn [fst snd] in X, Y.
      assert (IW : In (nth i (ts_words st) []) (ts_words st)) by (apply nth_In; exact I1).
      exists (nth i (ts_words st) []), (nth i counts 0%N), pre, x, y, post. split; [|split; [exact EW|split; [exact X|split; [exact Y|]]]].
      + eapply nth_combine_in; [apply nth_error_nth'; exact I1|apply nth_error_nth'; lia].
      + apply (allowed_joinable len); [| |rewrite X, Y; exact F2]; apply (f_syms _ _ _ _ _ _ F _ _ IW); rewrite EW; apply in_or_app; right; cbn; auto.
    - unfold least_frequency. lia.
    - intros a' b' CA. destruct (N.eq_dec (frequency a' b' (seg st)) 0) as [Z0|Z0]; [left; lia|].
      destruct (candidate_entry _ _ _ _ _ _ L F CA ltac:(lia)) as (e & He & Ep & LE). eapply Permutation_in in He; [|exact PQ]. destruct He as [<-|He].
      + rewrite ET in Ep. injection Ep as <- <-. right. split; [reflexivity|]. unfold pair_le. cbn. lia.
      + destruct (FO e He) as [X|[X Y]]; [left; lia|]. rewrite ET, Ep in Y.
        destruct (N.eq_dec (frequency a' b' (seg st)) (frequency a b (seg st))) as [Q|Q]; [right; auto|left; lia].
  Qed.

  Lemma rare_stops len U M st top q : length (ts_words st) = length counts -> finv tr counts len U M st ->
    Permutation (ts_queue st) (top :: q) -> first_of top q -> ~ enough tr top ->
    forall a b, candidate (tr_max_length tr) (seg st) a b -> (frequency a b (seg st) < least_frequency tr)%N.
  Proof.
    intros L F PQ FO EN a b CA. unfold least_frequency, enough in *. destruct (N.eq_dec (frequency a b (seg st)) 0) as [Z0|Z0]; [lia|].
    destruct (candidate_entry _ _ _ _ _ _ L F CA ltac:(lia)) as (e & He & Ep & LE). eapply Permutation_in in He; [|exact PQ]. destruct He as [<-|He]; [lia|]. destruct (FO e He) as [X|[X _]]; lia.
  Qed.

  Lemma words_replaced len U M st top q st' ta tb t r wtu : finv tr counts len U M st -> In top (ts_queue st) -> merge_step tr counts top q st st' ta tb t r wtu ->
    ts_words st' = map (replace (fst (tm_pair top)) (snd (tm_pair top)) r) (ts_words st).
  Proof.
    intros F IT MS. apply nth_error_ext. intros i. rewrite nth_error_map. destruct (ms_words _ _ _ _ _ _ _ _ _ _ _ MS) as [_ GW]. rewrite GW. destruct (existsb (Nat.eqb i) (tm_pos top)) eqn:E; [reflexivity|].
    destruct (nth_error (ts_words st) i) as [w|] eqn:EW; [|reflexivity]. cbn [option_map]. rewrite replace_none; [reflexivity|].
    destruct (Z.eq_dec (occ (fst (tm_pair top), snd (tm_pair top)) w) 0) as [Z0|Z0]; [exact Z0|]. exfalso.
    assert (EP : (fst (tm_pair top), snd (tm_pair top)) = tm_pair top) by (destruct (tm_pair top); reflexivity). rewrite EP in Z0.
    assert (HI : In i (tm_pos top)).
    { apply (f_pos _ _ _ _ _ _ F top i IT). rewrite (nth_error_nth _ _ _ EW). pose proof (occ_nonneg (tm_pair top) w). lia. }
    assert (X : existsb (Nat.eqb i) (tm_pos top) = true) by (apply existsb_exists; exists i; split; [exact HI|apply Nat.eqb_refl]). congruence.
  Qed.

  Lemma loop_extends : forall fuel st st', ginv counts w0 st -> train_loop pop tr fuel counts st = Ok st' -> exists ms, ts_merges st' = ts_merges st ++ ms.
  Proof.
    intros fuel st st' G E. eapply (train_loop_ind pop tr counts w0 (fun s => exists ms, ts_merges s = ts_merges st ++ ms)); [exact HP| | |exact G| |exact E].
    - intros s top q _ X _. exact X.
    - intros s top q s' ta tb t r wtu _ (ms & X) _ _ _ _ _ _ MS. rewrite (ms_merges _ _ _ _ _ _ _ _ _ _ _ MS), X, <- app_assoc. eauto.
    - exists []. rewrite app_nil_r. reflexivity.
  Qed.

  Lemma loop_learns : forall fuel st st' len U M ms, ginv counts w0 st -> finv tr counts len U M st -> train_loop pop tr fuel counts st = Ok st' ->
    ts_merges st' = ts_merges st ++ ms -> NoDup (map snd ms) -> (forall x, In x U -> ~ In x (map snd ms)) ->
    learns tr (v_words (ts_voc st)) (seg st) ms (v_words (ts_voc st')) (seg st').
  Proof.
    induction fuel as [|fuel IH]; intros st st' len U M ms G F E EM ND DJ; [discriminate|].
    assert (NIL : forall s : tstate, ts_merges s = ts_merges s ++ ms -> ms = []).
    { intros s X. rewrite <- app_nil_r in X at 1. apply app_inv_head in X. auto. }
    destruct (train_loop_turn pop tr counts w0 fuel st HP G) as [[C E']|[C [[C' E']|(top & q & PQ & MX & EO & [[NE E']|[EQ [[L E']|[L (st1 & ta & tb & t & r & wtu & _ & MS & E')]]]])]]]; rewrite E' in E.
    - injection E as <-. rewrite (NIL _ EM). apply learns_stop. left. exact C.
    - injection E as <-. rewrite (NIL _ EM). apply learns_stop. right. intros a b CA. unfold least_frequency. destruct (N.eq_dec (frequency a b (seg st)) 0) as [Z0|Z0]; [lia|].
      destruct (candidate_entry _ _ _ _ _ _ (g_len _ _ _ G) F CA ltac:(lia)) as (e & He & _). rewrite C' in He. destruct He.
    - apply (IH (repushed st top q) st' len U M ms); [apply repushed_ginv; assumption|eapply finv_repush; eassumption|exact E|exact EM|exact ND|exact DJ].
    - injection E as <-. rewrite (NIL _ EM). apply learns_stop. right. apply (rare_stops len U M st top q); [exact (g_len _ _ _ G)|exact F|exact PQ|exact MX|]. unfold enough. lia.
    - assert (IT : In top (ts_queue st)) by (eapply Permutation_in; [symmetry; exact PQ|left; reflexivity]).
      assert (G1 : ginv counts w0 st1).
      { eapply merge_step_ginv; [exact G|apply wsum_nonneg|exact EO| |exact MS]. intros e He. eapply Permutation_in; [symmetry; exact PQ|right; exact He]. }
      destruct (loop_extends fuel st1 st' G1 E) as (ms1 & X). pose proof X as X1. rewrite (ms_merges _ _ _ _ _ _ _ _ _ _ _ MS), <- app_assoc, EM in X. apply app_inv_head in X. cbn [app] in X. subst ms.
      cbn [map snd] in ND, DJ. apply NoDup_cons_iff in ND. destruct ND as [ND1 ND2].
      assert (NR : ~ In r U) by (intros Y; apply (DJ r Y); left; reflexivity).
      destruct (top_best _ _ _ _ _ _ (g_len _ _ _ G) F PQ MX EQ ltac:(unfold enough; lia)) as [BE _].
      assert (EP : tm_pair top = (fst (tm_pair top), snd (tm_pair top))) by (destruct (tm_pair top); reflexivity). rewrite EP.
      eapply learns_step; [exact C|exact BE|exact (ms_a _ _ _ _ _ _ _ _ _ _ _ MS)|exact (ms_b _ _ _ _ _ _ _ _ _ _ _ MS)|exact (ms_joined _ _ _ _ _ _ _ _ _ _ _ MS)|exact (ms_toks _ _ _ _ _ _ _ _ _ _ _ MS)|exact (ms_r _ _ _ _ _ _ _ _ _ _ _ MS)|].
      rewrite combine_map_l, <- (words_replaced _ _ _ _ _ _ _ _ _ _ _ _ F IT MS).
      apply (IH st1 st' (set_len len r (len (fst (tm_pair top)) + len (snd (tm_pair top)))) (r :: U) (tm_pair top :: M) ms1 G1); [|exact E|exact X1|exact ND2|].
      + exact (finv_step tr counts w0 len U M st top q st1 ta tb t r wtu G F PQ EO MS NR).
      + intros x [<-|Hx]; [exact ND1|]. intros Y. apply (DJ x Hx). right. exact Y.
  Qed.
End fresh.

(** ** At the start *)
Definition ids_of (words : list (list (N * nat))) : list N := flat_map (map fst) words.

Lemma ids_of_in words x : In x (ids_of words) <-> exists w s, In w words /\ In s w /\ fst s = x.
Proof.
  unfold ids_of. rewrite in_flat_map. split.
  - intros (w & H1 & H2). apply in_map_iff in H2. destruct H2 as (s & H2 & H3). eauto.
  - intros (w & s & H1 & H2 & H3). exists w. split; [exact H1|]. apply in_map_iff. eauto.
Qed.

Lemma prepared_finv tr wc al st wtu : prepared tr wc al st wtu -> finv tr (map snd wc) (fun _ => 1) (ids_of (ts_words st)) [] st.
Proof.
  intros P. assert (SY : forall w s, In w (ts_words st) -> In s w -> snd s = 1).
  { intros w s Hw Hs. destruct (forall2_in_r _ _ _ (p_spelled _ _ _ _ _ P) w Hw) as (wn & _ & Sp). apply spelled_facts in Sp. apply (proj2 Sp s Hs). }
  assert (AL : forall p, allowed (tr_max_length tr) (fun _ => 1) p) by (intros p; left; auto).
  constructor.
  - intros w s Hw Hs. split; [apply ids_of_in; eauto|eapply SY; eassumption].
  - intros p Hp. destruct (p_keys _ _ _ _ _ P p Hp) as (w & Hw & X). apply windows_in in X. destruct X as [X Y]. apply in_map_iff in X, Y. destruct X as (x & X1 & X2), Y as (y & Y1 & Y2). split; apply ids_of_in; eauto.
  - intros p _ _. apply (p_pc _ _ _ _ _ P).
  - intros p w [].
  - intros p [].
  - intros e He. rewrite (p_queue _ _ _ _ _ P) in He. apply new_entries_in in He. destruct He as (X1 & X2 & _). split; [intros []|]. split; [apply AL|]. rewrite (p_pc _ _ _ _ _ P) in *. lia.
  - rewrite (p_queue _ _ _ _ _ P). apply new_entries_nodup, (p_sets _ _ _ _ _ P).
  - intros p _ _ HW. rewrite (p_queue _ _ _ _ _ P). destruct (wsum_pos (occ p) _ _ (occ_nonneg p) HW) as (i & I1 & _ & I3). apply occ_windows in I3.
    assert (K : In p (map fst wtu)) by (apply (p_wkeys _ _ _ _ _ P); exists (nth i (ts_words st) []); split; [apply nth_In; exact I1|exact I3]). apply in_map_iff in K. destruct K as ([p' l] & K1 & K2). cbn in K1. subst p'.
    exists (mkTm p (pair_count (ts_pc st) p) l). split; [|reflexivity]. apply new_entries_in. cbn [tm_pair tm_count tm_pos]. rewrite (p_pc _ _ _ _ _ P). auto.
  - intros e i He HO. rewrite (p_queue _ _ _ _ _ P) in He. apply new_entries_in in He. destruct He as (_ & _ & X).
    assert (GT : aget pair_eqb (tm_pair e) wtu = Some (tm_pos e)) by (apply In_aget; [apply pair_eqb_eq|apply (p_sets _ _ _ _ _ P)|exact X]).
    assert (J : at_word wtu (tm_pair e) i).
    { apply (p_at _ _ _ _ _ P). split; [|apply occ_windows; exact HO]. destruct (Nat.ltb_spec i (length (ts_words st))) as [L|L]; [exact L|]. rewrite nth_overflow in HO by exact L. unfold occ in HO. cbn in HO. lia. }
    destruct J as (l & J1 & J2). rewrite GT in J1. injection J1 as <-. exact J2.
  - intros x _. lia.
Qed.

Lemma turns_enough q words st : q = ts_queue st -> words = ts_words st -> measure st * (measure st + 1) + length (inexact st) < turns q words.
Proof.
  intros -> ->. unfold turns. fold (measure st). cbv zeta. change (length (ts_queue st) + 3 * total_len (ts_words st)) with (measure st).
  assert (length (inexact st) <= measure st).
  { unfold inexact, measure. pose proof (filter_le (fun e => negb (Z.eqb (tm_count e) (as_u64 (pair_count (ts_pc st) (tm_pair e))))) (ts_queue st)). lia. }
  nia.
Qed.
