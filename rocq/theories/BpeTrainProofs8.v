(** Proofs about training: the model that comes out. *)
From Verif Require Import Base ListFacts StrBytes Utf8 AMap EncodingModel BpeWordModel BpeWordSpec BpeModel BpeSpec BpeProofs
  BpeTrainModel BpeTrainSpec BpeTrainProofs BpeTrainProofs2 BpeTrainProofs3 BpeTrainProofs4 BpeTrainProofs5 BpeTrainProofs6 BpeTrainProofs7.
From Coq Require Import ZArith.

(** ** A run *)
Definition result (tr : trainer) (m : bpe) (toks : list str) (ms : list ((N * N) * N)) : bpe :=
  mkBpe (indexed toks) (reverse_vocab (indexed toks)) (final_merges 0 ms []) (b_dropout m) (b_unk m)
        (tr_prefix tr) (tr_suffix tr) (b_fuse m) (b_fallback m) (b_ignore_merges m).

Lemma train_run by_count pop tr wc m : count_sort by_count -> train_heap pop -> small_corpus wc ->
  exists al st wtu st', prepared tr wc al st wtu /\ train_loop pop tr (turns (ts_queue st) (ts_words st)) (map snd wc) st = Ok st' /\ vok (ts_voc st') /\
    do_train by_count pop tr wc m = Ok (result tr m (v_words (ts_voc st')) (ts_merges st'), tr_special tr).
Proof.
  intros HC HP SC. destruct (prepare_spec by_count tr wc HC SC) as (al & st & wtu & E & P).
  destruct (train_loop_total pop tr (map snd wc) (Z.of_N (corpus_size wc)) HP _ st (p_ginv _ _ _ _ _ P) (turns_enough _ _ st eq_refl eq_refl)) as (st' & E').
  assert (G : ginv (map snd wc) (Z.of_N (corpus_size wc)) st' /\ True /\ stopped tr st').
  { eapply (train_loop_ind pop tr (map snd wc) (Z.of_N (corpus_size wc)) (fun _ => True)); [exact HP|auto|auto|exact (p_ginv _ _ _ _ _ P)|exact Logic.I|exact E']. }
  exists al, st, wtu, st'. split; [exact P|]. split; [exact E'|]. pose proof (g_voc _ _ _ (proj1 G)) as V. split; [exact V|].
  unfold do_train. rewrite E. cbn [bind]. rewrite E'. cbn [bind]. rewrite (final_vocab_spec _ V). reflexivity.
Qed.

Lemma indexed_snd ws : map snd (indexed ws) = map N.of_nat (seq 0 (length ws)).
Proof.
  induction ws as [|s ws IH] using rev_ind; [reflexivity|]. rewrite indexed_snoc, map_app, IH, app_length. cbn [length map snd]. rewrite Nat.add_1_r, seq_S, map_app. reflexivity.
Qed.
Lemma indexed_ids_nodup ws : NoDup (map snd (indexed ws)).
Proof. rewrite indexed_snd. apply FinFun.Injective_map_NoDup; [intros x y H; lia|apply seq_NoDup]. Qed.

Lemma reverse_indexed ws : forall i t, In (i, t) (reverse_vocab (indexed ws)) <-> nth_error ws (N.to_nat i) = Some t.
Proof.
  assert (E : reverse_vocab (indexed ws) = map (fun ti => (snd ti, fst ti)) (indexed ws)).
  { unfold reverse_vocab. pose proof (indexed_ids_nodup ws) as D. revert D. induction (indexed ws) as [|x l IH] using rev_ind; intros D; [reflexivity|].
    rewrite map_app in D. cbn [map] in D. assert (D' := NoDup_remove (map snd l) [] (snd x) D). rewrite app_nil_r in D'. destruct D' as [D1 D2].
    rewrite fold_left_app, map_app, (IH D1). cbn [fold_left map]. apply aset_absent. apply (aget_none _ N.eqb_eq). rewrite map_map. cbn [fst]. exact D2. }
  intros i t. rewrite E, in_map_iff, <- indexed_in. split.
  - intros ([t' i'] & X & H). injection X as -> ->. exact H.
  - intros H. exists (t, i). auto.
Qed.

Lemma result_vocabulary tr m toks ms : NoDup toks -> vocabulary (result tr m toks ms) toks.
Proof. intros D. split; [exact D|]. split; intros t i; cbn [b_vocab b_vocab_r result]; [apply indexed_in|apply reverse_indexed]. Qed.

(** ** Merges make tokens *)
Definition at_id (toks : list str) (i : N) (t : str) : Prop := nth_error toks (N.to_nat i) = Some t.
Definition makes (tr : trainer) (toks : list str) (m : (N * N) * N) : Prop :=
  exists ta tb t, at_id toks (fst (fst m)) ta /\ at_id toks (snd (fst m)) tb /\ at_id toks (snd m) t /\ joined (tr_prefix tr) ta tb t.

Lemma at_id_app toks rest i t : at_id toks i t -> at_id (toks ++ rest) i t.
Proof. unfold at_id. intros H. rewrite nth_error_app1; [exact H|]. apply nth_error_Some. congruence. Qed.
Lemma makes_app tr toks rest m : makes tr toks m -> makes tr (toks ++ rest) m.
Proof. intros (ta & tb & t & A & B & C & J). exists ta, tb, t. repeat split; try (apply at_id_app; assumption). exact J. Qed.

Lemma loop_tokens pop tr wc al st wtu fuel st' : train_heap pop -> prepared tr wc al st wtu -> train_loop pop tr fuel (map snd wc) st = Ok st' ->
  let toks := v_words (ts_voc st) in let toks' := v_words (ts_voc st') in
  length toks' <= Nat.max (tr_vocab_size tr) (length toks) /\ Forall (makes tr toks') (ts_merges st') /\
  exists rest, toks' = toks ++ rest /\ forall t, In t rest -> exists m, In m (ts_merges st') /\ at_id toks' (snd m) t.
Proof.
  intros HP P E. cbv zeta. set (toks := v_words (ts_voc st)).
  set (Inv := fun s : tstate => length (v_words (ts_voc s)) <= Nat.max (tr_vocab_size tr) (length toks) /\ Forall (makes tr (v_words (ts_voc s))) (ts_merges s) /\
     exists rest, v_words (ts_voc s) = toks ++ rest /\ forall t, In t rest -> exists m, In m (ts_merges s) /\ at_id (v_words (ts_voc s)) (snd m) t).
  destruct (train_loop_ind pop tr (map snd wc) (Z.of_N (corpus_size wc)) Inv HP) with (fuel := fuel) (st := st) (st' := st') as (_ & X & _).
  - intros s top q _ X _. exact X.
  - intros s top q s' ta tb t r wt G (LE & F & rest & ER & HR) LV PQ FO EO EX EN MS. unfold Inv. rewrite (ms_merges _ _ _ _ _ _ _ _ _ _ _ MS).
    assert (EXT : exists more, v_words (ts_voc s') = v_words (ts_voc s) ++ more /\ length more <= 1 /\ forall x, In x more -> x = t).
    { destruct (ms_toks _ _ _ _ _ _ _ _ _ _ _ MS) as [[_ ->]|[_ ->]]; [exists []; rewrite app_nil_r; cbn; intuition|exists [t]; cbn; intuition]. }
    destruct EXT as (more & EM & L1 & H1). pose proof (ms_r _ _ _ _ _ _ _ _ _ _ _ MS) as MR. split; [|split].
    + rewrite EM, app_length. lia.
    + apply Forall_app. split; [rewrite EM; eapply Forall_impl; [|exact F]; intros m; apply makes_app|]. constructor; [|constructor]. exists ta, tb, t. cbn [fst snd].
      split; [rewrite EM; apply at_id_app; exact (ms_a _ _ _ _ _ _ _ _ _ _ _ MS)|]. split; [rewrite EM; apply at_id_app; exact (ms_b _ _ _ _ _ _ _ _ _ _ _ MS)|]. split; [exact MR|exact (ms_joined _ _ _ _ _ _ _ _ _ _ _ MS)].
    + exists (rest ++ more). split; [rewrite EM, ER, app_assoc; reflexivity|]. intros x Hx. apply in_app_or in Hx. destruct Hx as [Hx|Hx].
      * destruct (HR x Hx) as (m & Hm & A). exists m. split; [apply in_or_app; auto|]. rewrite EM. apply at_id_app. exact A.
      * rewrite (H1 x Hx). exists (tm_pair top, r). split; [apply in_or_app; right; left; reflexivity|]. exact MR.
  - exact (p_ginv _ _ _ _ _ P).
  - split; [apply Nat.le_max_r|]. rewrite (p_merges _ _ _ _ _ P). split; [constructor|]. exists []. rewrite app_nil_r. split; [reflexivity|intros ? []].
  - exact E.
  - exact X.
Qed.

(** ** With a prefix, second parts have it *)
Definition starts (prefix : option str) (t : str) : Prop := match prefix with Some p => exists rest, t = p ++ rest | None => True end.

Lemma changes_second (Q : N -> Prop) c1 c2 r mx : (Q c1 -> Q r) -> forall n w prev, length w <= n ->
  Forall (fun s : N * nat => Q (fst s)) (match prev with None => List.tl w | Some _ => w end) ->
  forall p d, In (p, d) (snd (word_merge c1 c2 r mx prev w)) -> Q (snd p).
Proof.
  intros HR. induction n as [|n IH]; intros w prev L F p d; [destruct w; [intros []|cbn in L; lia]|].
  destruct w as [|[a la] w1]; [intros []|]. cbn [word_merge].
  assert (F1 : Forall (fun s : N * nat => Q (fst s)) w1) by (destruct prev; [exact (Forall_inv_tail F)|exact F]).
  destruct w1 as [|[b lb] w2]; [intros []|]. cbn [length] in L. pose proof (Forall_inv_tail F1) as F2. destruct (N.eqb a c1 && N.eqb b c2) eqn:EQ.
  - apply andb_prop in EQ. destruct EQ as [EQ _]. apply N.eqb_eq in EQ. subst a.
    specialize (IH w2 (Some (r, la + lb)) ltac:(lia) F2 p d). destruct (word_merge c1 c2 r mx (Some (r, la + lb)) w2) as [w' ch]. cbn [snd] in *. intros H. rewrite !in_app_iff in H. destruct H as [H|[H|H]].
    + destruct prev as [[pv lp]|]; [|destruct H]. pose proof (Forall_inv F) as QA. cbn [fst] in QA. destruct H as [H|H]; [injection H as <- _; exact QA|].
      destruct (below mx (lp + (la + lb))); [|destruct H]. destruct H as [H|[]]. injection H as <- _. apply HR. exact QA.
    + destruct w2 as [|[z lz] w3]; [destruct H|]. pose proof (Forall_inv F2) as QZ. cbn [fst] in QZ. destruct H as [H|H]; [injection H as <- _; exact QZ|].
      destruct (below mx (lz + (la + lb))); [|destruct H]. destruct H as [H|[]]. injection H as <- _. exact QZ.
    + apply IH. exact H.
  - specialize (IH ((b, lb) :: w2) (Some (a, la)) ltac:(cbn [length]; lia) F1 p d). destruct (word_merge c1 c2 r mx (Some (a, la)) ((b, lb) :: w2)) as [w' ch]. cbn [snd] in *. exact IH.
Qed.

Lemma replace_forall (Q : N -> Prop) a b r : (Q a -> Q r) -> forall n w, length w <= n -> Forall (fun s : N * nat => Q (fst s)) w -> Forall (fun s => Q (fst s)) (replace a b r w).
Proof.
  intros HR n w _ F. apply Forall_forall. intros s Hs. rewrite Forall_forall in F. destruct (replace_in _ _ _ _ _ _ (le_n _) Hs) as [H|(E & x & y & Hx & _ & Ex & _)]; [apply F; exact H|]. rewrite E. apply HR. rewrite <- Ex. apply F. exact Hx.
Qed.
Lemma replace_tail (Q : N -> Prop) a b r w : (Q a -> Q r) -> Forall (fun s : N * nat => Q (fst s)) (List.tl w) -> Forall (fun s => Q (fst s)) (List.tl (replace a b r w)).
Proof.
  intros HR F. destruct w as [|x [|y w]]; [constructor|constructor|]. rewrite replace_cons2. destruct (N.eqb (fst x) a && N.eqb (fst y) b); cbn [List.tl] in *; eapply replace_forall; eauto. exact (Forall_inv_tail F).
Qed.

Definition prefixed (tr : trainer) (toks : list str) (i : N) : Prop := exists t, at_id toks i t /\ starts (tr_prefix tr) t.

Lemma starts_joined prefix a b t : joined prefix a b t -> starts prefix a -> starts prefix t.
Proof.
  unfold starts. destruct prefix as [p|]; [|auto]. intros J (rest & ->). destruct J as [(q & x & _ & _ & ->)|(_ & ->)]; rewrite <- app_assoc; eauto.
Qed.

Lemma spelled_prefixed tr toks first s w : spelled tr toks first s w -> Forall (fun x => prefixed tr toks (fst x)) (if first then List.tl w else w).
Proof.
  induction 1 as [first|first c s i w K E Sp IH|first c s w K Sp IH].
  - destruct first; constructor.
  - destruct first; [exact IH|]. constructor; [|exact IH]. cbn [fst]. eexists. split; [exact E|]. unfold starts, affixed. destruct (tr_prefix tr) as [p|]; [|exact Logic.I]. eexists. reflexivity.
  - destruct first; [|exact IH]. destruct w; [constructor|]. exact (Forall_inv_tail IH).
Qed.

Lemma loop_prefixed pop tr wc al st wtu fuel st' : train_heap pop -> prepared tr wc al st wtu -> train_loop pop tr fuel (map snd wc) st = Ok st' ->
  Forall (fun m : (N * N) * N => prefixed tr (v_words (ts_voc st')) (snd (fst m))) (ts_merges st').
Proof.
  intros HP P E.
  set (Inv := fun s : tstate => let Q := prefixed tr (v_words (ts_voc s)) in
     Forall (fun m : (N * N) * N => Q (snd (fst m))) (ts_merges s) /\ (forall w, In w (ts_words s) -> Forall (fun x => Q (fst x)) (List.tl w)) /\ (forall p, In p (map fst (ts_pc s)) -> Q (snd p))).
  destruct (train_loop_ind pop tr (map snd wc) (Z.of_N (corpus_size wc)) Inv HP) with (fuel := fuel) (st := st) (st' := st') as (_ & X & _).
  - intros s top q _ X _. exact X.
  - intros s top q s' ta tb t r wt G (F1 & F2 & F3) LV PQ FO EO EX EN MS. unfold Inv. cbv zeta in *. set (Q' := prefixed tr (v_words (ts_voc s'))).
    assert (UP : forall i, prefixed tr (v_words (ts_voc s)) i -> Q' i).
    { intros i (x & A & B). exists x. split; [|exact B]. destruct (ms_toks _ _ _ _ _ _ _ _ _ _ _ MS) as [[_ ->]|[_ ->]]; [exact A|apply at_id_app; exact A]. }
    assert (AQ : at_id (v_words (ts_voc s')) (fst (tm_pair top)) ta).
    { pose proof (ms_a _ _ _ _ _ _ _ _ _ _ _ MS) as A. destruct (ms_toks _ _ _ _ _ _ _ _ _ _ _ MS) as [[_ ->]|[_ ->]]; [exact A|apply at_id_app; exact A]. }
    assert (HR : Q' (fst (tm_pair top)) -> Q' r).
    { intros (x & A & B). assert (x = ta) by (unfold at_id in *; congruence). subst x. exists t. split; [exact (ms_r _ _ _ _ _ _ _ _ _ _ _ MS)|]. eapply starts_joined; [exact (ms_joined _ _ _ _ _ _ _ _ _ _ _ MS)|exact B]. }
    assert (F2' : forall w, In w (ts_words s) -> Forall (fun x => Q' (fst x)) (List.tl w)).
    { intros w Hw. eapply Forall_impl; [|exact (F2 w Hw)]. cbn. intros x. apply UP. }
    split; [|split].
    + rewrite (ms_merges _ _ _ _ _ _ _ _ _ _ _ MS). apply Forall_app. split; [eapply Forall_impl; [|exact F1]; cbn; intros x; apply UP|]. constructor; [|constructor]. cbn [fst]. apply UP, F3. exact (eo_key _ _ _ _ EO).
    + intros w Hw. apply In_nth_error in Hw. destruct Hw as (i & Hi). destruct (ms_words _ _ _ _ _ _ _ _ _ _ _ MS) as [_ GW]. rewrite GW in Hi. destruct (existsb (Nat.eqb i) (tm_pos top)).
      * destruct (nth_error (ts_words s) i) as [w1|] eqn:EW; [|discriminate]. cbn [option_map] in Hi. injection Hi as <-. apply replace_tail; [exact HR|]. apply F2'. eapply nth_error_In. exact EW.
      * apply F2'. eapply nth_error_In. exact Hi.
    + intros p Hp. apply (ms_keys _ _ _ _ _ _ _ _ _ _ _ MS) in Hp. destruct Hp as [Hp|Hp]; [apply UP, F3; exact Hp|]. apply in_map_iff in Hp. destruct Hp as ([[p' d] i] & Ep & Hp). cbn [fst] in Ep. subst p'.
      apply in_flat_map in Hp. destruct Hp as (j & _ & Hp). unfold word_changes in Hp. apply in_map_iff in Hp. destruct Hp as ([p' d'] & Ep & Hp). injection Ep as -> -> ->.
      eapply (changes_second Q' _ _ _ _ HR _ _ None (le_n _)); [|exact Hp]. destruct (nth_in_or_default i (ts_words s) []) as [X| ->]; [apply F2'; exact X|constructor].
  - exact (p_ginv _ _ _ _ _ P).
  - assert (F2 : forall w, In w (ts_words st) -> Forall (fun x => prefixed tr (v_words (ts_voc st)) (fst x)) (List.tl w)).
    { intros w Hw. destruct (forall2_in_r _ _ _ (p_spelled _ _ _ _ _ P) w Hw) as (wn & _ & Sp). exact (spelled_prefixed _ _ _ _ _ Sp). }
    split; [rewrite (p_merges _ _ _ _ _ P); constructor|]. split; [exact F2|]. intros p Hp. destruct (p_keys _ _ _ _ _ P p Hp) as (w & Hw & Hi). specialize (F2 w Hw). rewrite Forall_forall in F2.
    assert (HI : forall l : list N, In p (windows l) -> In (snd p) (List.tl l)).
    { clear. induction l as [|a l IH]; intros H; [destruct H|]. destruct l as [|b l]; [destruct H|]. change (windows (a :: b :: l)) with ((a, b) :: windows (b :: l)) in H. cbn [List.tl] in *.
      destruct H as [<-|H]; [left; reflexivity|right; apply IH; exact H]. }
    apply HI in Hi. assert (X : In (snd p) (map fst (List.tl w))) by (destruct w; [destruct Hi|exact Hi]). apply in_map_iff in X. destruct X as (x & <- & Hx). apply F2. exact Hx.
  - exact E.
  - apply X.
Qed.

(** ** The builder makes the same model *)
Definition text_pair (toks : list str) (m : (N * N) * N) : str * str := (nth (N.to_nat (fst (fst m))) toks [], nth (N.to_nat (snd (fst m))) toks []).

Lemma rebuild tr toks ms m : NoDup toks -> Forall (makes tr toks) ms -> Forall (fun m : (N * N) * N => prefixed tr toks (snd (fst m))) ms -> b_dropout m <> DOutside ->
  bpe_build (indexed toks) (map (text_pair toks) ms) (b_dropout m) (b_unk m) (tr_prefix tr) (tr_suffix tr) (b_fuse m) (b_fallback m) (b_ignore_merges m) = Ok (result tr m toks ms).
Proof.
  intros D F1 F2 DO.
  assert (E : forall ms i acc, Forall (makes tr toks) ms -> Forall (fun m : (N * N) * N => prefixed tr toks (snd (fst m))) ms ->
     build_merges (indexed toks) (opt_blen (tr_prefix tr)) (max_blen (indexed toks)) i (map (text_pair toks) ms) acc = Ok (final_merges i ms acc)).
  { clear F1 F2 ms. induction ms as [|[[a b] r] ms IH]; intros i acc F1 F2; [reflexivity|]. pose proof (Forall_inv F1) as (ta & tb & t & A & B & C & J). pose proof (Forall_inv F2) as (tb' & B' & ST). cbn [fst snd] in *.
    assert (tb' = tb) by (unfold at_id in *; congruence). subst tb'. cbn [map build_merges]. unfold text_pair at 1. cbn [fst snd]. rewrite (nth_error_nth _ _ _ A), (nth_error_nth _ _ _ B).
    assert (X : exists p rest, tb = p ++ rest /\ blen p = opt_blen (tr_prefix tr) /\ t = ta ++ rest).
    { unfold starts in ST. destruct J as [(p & rest & -> & -> & ->)|(NP & ->)]; [exists p, rest; auto|]. destruct (tr_prefix tr) as [p|]; [|exists [], tb; auto]. destruct ST as (rest & ->). exfalso. eapply NP; reflexivity. }
    destruct X as (p & rest & EB & EP & ET). subst t.
    rewrite (build_merge_accept (indexed toks) _ i ta tb a b p rest r); [|apply aget_indexed; assumption|apply aget_indexed; assumption|exact EB|exact EP|apply aget_indexed; assumption].
    cbn [bind fst snd final_merges]. apply IH; [exact (Forall_inv_tail F1)|exact (Forall_inv_tail F2)]. }
  unfold bpe_build, result. rewrite (E ms 0 [] F1 F2). cbn [bind]. destruct (b_dropout m); try reflexivity. congruence.
Qed.
