From Verif Require Import Base EncodingModel EncodingSpec EncodingProofs EncodingProofs2.

Lemma apply_enc_op_parallel e op e' :
  parallel e ->
  (forall g p, op = OpMergeWith g p \/ op = OpMergeBefore g p -> parallel p) ->
  apply_enc_op e op = Ok e' -> parallel e'.
Proof.
  intros He Hop H; destruct op; cbn [apply_enc_op] in H; try (inversion H; subst; clear H).
  - eapply truncate_parallel; eassumption.
  - apply pad_parallel; exact He.
  - apply merge_with_parallel; [exact He|apply (Hop growing); auto].
  - apply merge_with_parallel; [apply (Hop growing); auto|exact He].
  - destruct He as [H1 H2]; constructor; assumption.
  - destruct He as [(H1 & H2 & H3 & H4 & H5 & H6) G]; constructor; [|exact G].
    unfold same_lengths, enc_len in *; unfold_enc; rewrite repeat_length; repeat split; assumption.
  - destruct He as [H1 H2]; constructor; [exact H1|constructor].
Qed.

Lemma run_enc_ops_parallel ops : forall e e',
  parallel e ->
  (forall g p, In (OpMergeWith g p) ops \/ In (OpMergeBefore g p) ops -> parallel p) ->
  run_enc_ops e ops = Ok e' -> parallel e'.
Proof.
  induction ops as [|op ops IH]; intros e e' He Hops H; cbn [run_enc_ops] in H.
  - inversion H; subst; exact He.
  - apply bind_ok in H; destruct H as (e1 & H1 & H2).
    apply (IH e1); [|intros g p Hin; apply (Hops g); cbn [In]; tauto|exact H2].
    eapply apply_enc_op_parallel; [exact He| |exact H1].
    intros g p Hin; apply (Hops g); cbn [In]; destruct Hin as [<-|<-]; auto.
Qed.

(** ** Ranges *)
Lemma ranges_get_in s r m : NoDup (map fst m) -> (ranges_get s m = Some r <-> In (s, r) m).
Proof.
  induction m as [|[k r'] m IH]; cbn [ranges_get map fst In]; intros Hnd.
  - split; [discriminate|tauto].
  - inversion Hnd; subst. destruct (Nat.eqb_spec s k) as [->|Hne].
    + split; [intros H; inversion H; auto|].
      intros [H|H]; [inversion H; reflexivity|].
      exfalso; apply H1; apply (in_map fst) in H; exact H.
    + rewrite IH by assumption; split; [auto|].
      intros [H|H]; [inversion H; congruence|exact H].
Qed.

Lemma sequence_range_span e s r : ranges_wf e -> seq_span e s r -> sequence_range e s = r.
Proof.
  intros (Hnd & _) [(Hr & -> & ->)|Hin]; unfold sequence_range.
  - rewrite Hr; reflexivity.
  - apply ranges_get_in in Hin; [|exact Hnd]; rewrite Hin; reflexivity.
Qed.

Lemma seq_span_bounds e s r : ranges_wf e -> seq_span e s r -> fst r <= snd r <= enc_len e.
Proof.
  intros (_ & Hb & _) [(_ & _ & ->)|Hin]; [cbn; lia|]. eapply Hb; eassumption.
Qed.

Lemma belongs_lt e i s : ranges_wf e -> belongs e i s -> i < enc_len e.
Proof.
  intros Hw (r & Hr & Hi); pose proof (seq_span_bounds _ _ _ Hw Hr); lia.
Qed.

Lemma belongs_unique e i s s' : ranges_wf e -> belongs e i s -> belongs e i s' -> s = s'.
Proof.
  intros (Hnd & Hb & Hd) (r & Hr & Hi) (r' & Hr' & Hi').
  destruct Hr as [(H1 & -> & ->)|Hr]; destruct Hr' as [(H1' & -> & ->)|Hr']; try reflexivity.
  - rewrite H1 in Hr'; destruct Hr'.
  - rewrite H1' in Hr; destruct Hr.
  - destruct (Nat.eq_dec s s') as [|Hne]; [assumption|].
    exfalso; eapply (Hd s s' r r' Hr Hr' Hne i); split; assumption.
Qed.

Lemma find_range_some i m s : find_range i m = Some s -> exists r, In (s, r) m /\ fst r <= i < snd r.
Proof.
  induction m as [|[k r] m IH]; cbn [find_range]; [discriminate|].
  unfold in_range; destruct ((fst r <=? i) && (i <? snd r)) eqn:E.
  - intros H; inversion H; subst; exists r; split; [left; reflexivity|lia].
  - intros H; destruct (IH H) as (r' & H1 & H2); exists r'; split; [right|]; assumption.
Qed.

Lemma find_range_none i m : find_range i m = None -> forall s r, In (s, r) m -> ~ fst r <= i < snd r.
Proof.
  induction m as [|[k r] m IH]; cbn [find_range]; [intros _ s r []|].
  unfold in_range; destruct ((fst r <=? i) && (i <? snd r)) eqn:E; [discriminate|].
  intros H s r' [Hin|Hin]; [inversion Hin; subst; lia|]. eapply IH; eassumption.
Qed.

Lemma token_to_sequence_spec e i s :
  ranges_wf e -> i < enc_len e -> (token_to_sequence e i = Some s <-> belongs e i s).
Proof.
  intros Hw Hi; unfold token_to_sequence.
  destruct (Nat.ltb_spec (enc_len e) i); [lia|].
  destruct (sequence_ranges e) as [|kr m] eqn:Hr.
  - split.
    + intros H1; inversion H1; subst; exists (0, enc_len e); split; [left; auto|cbn; lia].
    + intros (r & [(_ & -> & _)|Hin] & _); [reflexivity|rewrite Hr in Hin; destruct Hin].
  - rewrite <- Hr; split.
    + intros H1; apply find_range_some in H1; destruct H1 as (r & H1 & H2).
      exists r; split; [right; exact H1|exact H2].
    + intros (r & [(H1 & _)|Hin] & H2); [congruence|].
      destruct (find_range i (sequence_ranges e)) as [s'|] eqn:E.
      * apply find_range_some in E; destruct E as (r' & E1 & E2).
        f_equal; apply (belongs_unique e i s' s Hw).
        -- exists r'; split; [right; exact E1|exact E2].
        -- exists r; split; [right; exact Hin|exact H2].
      * exfalso; eapply find_range_none in E; [apply E; exact H2|exact Hin].
Qed.

Lemma token_to_sequence_out e i :
  ranges_wf e -> enc_len e <= i -> i <> enc_len e \/ sequence_ranges e <> [] ->
  token_to_sequence e i = None.
Proof.
  intros Hw Hi Hor; unfold token_to_sequence.
  destruct (Nat.ltb_spec (enc_len e) i); [reflexivity|].
  destruct (sequence_ranges e) as [|kr m] eqn:Hr; [destruct Hor; [lia|congruence]|].
  destruct (find_range i (kr :: m)) as [s|] eqn:E; [|reflexivity].
  rewrite <- Hr in E; apply find_range_some in E; destruct E as (r & E1 & E2).
  destruct Hw as (_ & Hb & _); specialize (Hb _ _ E1); lia.
Qed.

Lemma token_to_chars_spec e i s o :
  ranges_wf e -> same_lengths e ->
  (token_to_chars e i = Some (s, o) <-> belongs e i s /\ nth_error (offsets e) i = Some o).
Proof.
  intros Hw Hs; unfold token_to_chars.
  destruct (nth_error (offsets e) i) as [o'|] eqn:E.
  - assert (Hi : i < enc_len e).
    { destruct Hs as (_ & _ & _ & Hs & _); rewrite <- Hs; apply nth_error_Some; congruence. }
    rewrite <- (token_to_sequence_spec e i s Hw Hi).
    destruct (token_to_sequence e i) as [s'|]; split.
    + intros H; inversion H; subst; auto.
    + intros [H1 H2]; inversion H1; inversion H2; subst; reflexivity.
    + discriminate.
    + intros [H _]; discriminate.
  - destruct (token_to_sequence e i); split; try discriminate; intros [_ H]; discriminate.
Qed.

Lemma token_to_word_spec e i s w :
  ranges_wf e -> same_lengths e ->
  (token_to_word e i = Some (s, w) <-> belongs e i s /\ nth_error (words e) i = Some (Some w)).
Proof.
  intros Hw Hs; unfold token_to_word.
  destruct (nth_error (words e) i) as [[w'|]|] eqn:E.
  - assert (Hi : i < enc_len e).
    { destruct Hs as (_ & _ & Hs & _); rewrite <- Hs; apply nth_error_Some; congruence. }
    rewrite <- (token_to_sequence_spec e i s Hw Hi).
    destruct (token_to_sequence e i) as [s'|]; split.
    + intros H; inversion H; subst; auto.
    + intros [H1 H2]; inversion H1; inversion H2; subst; reflexivity.
    + discriminate.
    + intros [H _]; discriminate.
  - destruct (token_to_sequence e i); split; try discriminate; intros [_ H]; discriminate.
  - destruct (token_to_sequence e i); split; try discriminate; intros [_ H]; discriminate.
Qed.

(** ** char_to_token *)
Lemma nth_error_window {A} (l : list A) a b k :
  b <= length l -> nth_error (firstn (b - a) (skipn a l)) k =
  if a + k <? b then nth_error l (a + k) else None.
Proof.
  intros Hb; destruct (Nat.ltb_spec (a + k) b) as [H|H].
  - rewrite <- (firstn_skipn (b - a) (skipn a l)) at 1.
    assert (Hk : k < length (firstn (b - a) (skipn a l))).
    { rewrite firstn_length, skipn_length; lia. }
    transitivity (nth_error (firstn (b - a) (skipn a l) ++ skipn (b - a) (skipn a l)) k).
    + symmetry; rewrite nth_error_app1 by lia.
      rewrite firstn_skipn; reflexivity.
    + rewrite firstn_skipn. clear. revert l; induction a as [|a IH]; intros l; [reflexivity|].
      destruct l; [cbn; destruct k; reflexivity|]. cbn [skipn]; rewrite IH; reflexivity.
  - apply nth_error_None; rewrite firstn_length, skipn_length; lia.
Qed.

Lemma position_containing_spec os pos : forall i k,
  position_containing os pos i = Some k <->
  (i <= k /\ (exists o, nth_error os (k - i) = Some o /\ covers o pos) /\
   forall j o, j < k - i -> nth_error os j = Some o -> ~ covers o pos).
Proof.
  unfold covers; induction os as [|[a b] os IH]; intros i k; cbn [position_containing].
  - split; [discriminate|]. intros (_ & (o & H & _) & _).
    destruct (k - i); discriminate.
  - destruct ((a <=? pos) && (pos <? b)) eqn:E.
    + split.
      * intros H; inversion H; subst; rewrite Nat.sub_diag; split; [lia|split].
        -- exists (a, b); cbn; split; [reflexivity|lia].
        -- intros; lia.
      * intros (H1 & _ & H3). destruct (Nat.eq_dec i k) as [->|Hne]; [reflexivity|].
        exfalso; apply (H3 0 (a, b)); [lia|reflexivity|cbn; lia].
    + rewrite IH; split.
      * intros (H1 & (o & H2 & H2') & H3); split; [lia|split].
        -- exists o; split; [|exact H2'].
           replace (k - i) with (S (k - (i + 1))) by lia; exact H2.
        -- intros [|j] o' Hj Ho'; cbn [nth_error] in Ho'.
           ++ inversion Ho'; subst; cbn; lia.
           ++ apply (H3 j); [lia|exact Ho'].
      * intros (H1 & (o & H2 & H2') & H3).
        destruct (k - i) as [|d] eqn:Ed.
        -- exfalso; cbn in H2; inversion H2; subst; cbn in H2'; lia.
        -- split; [lia|]. replace (k - (i + 1)) with d by lia; split.
           ++ exists o; split; [exact H2|exact H2'].
           ++ intros j o' Hj Ho'; apply (H3 (S j)); [lia|exact Ho'].
Qed.

Lemma char_to_token_spec e pos s r i :
  ranges_wf e -> same_lengths e -> seq_span e s r ->
  (char_to_token e pos s = Some i <->
   fst r <= i < snd r /\
   (exists o, nth_error (offsets e) i = Some o /\ covers o pos) /\
   (forall j o, fst r <= j < i -> nth_error (offsets e) j = Some o -> ~ covers o pos)).
Proof.
  intros Hw Hs Hr; unfold char_to_token.
  rewrite (sequence_range_span e s r Hw Hr).
  pose proof (seq_span_bounds e s r Hw Hr) as Hb; destruct r as [a b]; cbn [fst snd] in *.
  destruct Hs as (_ & _ & _ & Hs & _).
  unfold get_range.
  replace ((a <=? b) && (b <=? length (offsets e))) with true by lia.
  destruct (position_containing (firstn (b - a) (skipn a (offsets e))) pos 0) as [p|] eqn:E.
  - apply position_containing_spec in E; destruct E as (_ & (o & E1 & E2) & E3).
    rewrite Nat.sub_0_r in *.
    rewrite nth_error_window in E1 by lia.
    destruct (Nat.ltb_spec (a + p) b) as [Hlt|]; [|discriminate].
    split.
    + intros H; inversion H; subst i; split; [lia|split; [exists o; auto|]].
      intros j o' Hj Ho'; apply (E3 (j - a)); [lia|].
      rewrite nth_error_window by lia.
      replace (a + (j - a)) with j by lia.
      destruct (Nat.ltb_spec j b); [exact Ho'|lia].
    + intros (H1 & (o' & H2 & H2') & H3); f_equal.
      destruct (Nat.lt_trichotomy (a + p) i) as [Hl|[Heq|Hg]]; [|exact Heq|].
      * exfalso; apply (H3 (a + p) o); [lia|exact E1|exact E2].
      * exfalso; apply (E3 (i - a) o'); [lia| |exact H2'].
        rewrite nth_error_window by lia. replace (a + (i - a)) with i by lia.
        destruct (Nat.ltb_spec i b); [exact H2|lia].
  - split; [discriminate|]. intros (H1 & (o & H2 & H2') & H3). exfalso.
    assert (G : position_containing (firstn (b - a) (skipn a (offsets e))) pos 0 = Some (i - a)).
    { apply position_containing_spec; rewrite Nat.sub_0_r; split; [lia|split].
      - exists o; split; [|exact H2']. rewrite nth_error_window by lia.
        replace (a + (i - a)) with i by lia.
        destruct (Nat.ltb_spec i b); [exact H2|lia].
      - intros j o' Hj Ho'; rewrite nth_error_window in Ho' by lia.
        destruct (Nat.ltb_spec (a + j) b); [|discriminate].
        apply (H3 (a + j)); [lia|exact Ho']. }
    congruence.
Qed.

Lemma char_to_word_spec e pos s r w :
  ranges_wf e -> same_lengths e -> seq_span e s r ->
  (char_to_word e pos s = Some w <->
   exists i, char_to_token e pos s = Some i /\ nth_error (words e) i = Some (Some w)).
Proof.
  intros Hw Hs Hr; unfold char_to_word.
  destruct (char_to_token e pos s) as [t|] eqn:E.
  - assert (Hbel : belongs e t s).
    { apply (char_to_token_spec e pos s r t Hw Hs Hr) in E; exists r; split; [exact Hr|apply E]. }
    destruct (token_to_word e t) as [[s' w']|] eqn:E2.
    + apply token_to_word_spec in E2; [|assumption|assumption]; destruct E2 as [_ E2].
      split.
      * intros H; inversion H; subst; exists t; auto.
      * intros (i & H1 & H2); inversion H1; subst; congruence.
    + split; [discriminate|]. intros (i & H1 & H2); inversion H1; subst i.
      assert (E3 : token_to_word e t = Some (s, w)) by (apply token_to_word_spec; auto).
      congruence.
  - split; [discriminate|]. intros (i & H1 & _); discriminate.
Qed.

Lemma char_token_roundtrip e i s o pos :
  ranges_wf e -> same_lengths e ->
  token_to_chars e i = Some (s, o) -> covers o pos ->
  exists j o', char_to_token e pos s = Some j /\ j <= i /\
    token_to_chars e j = Some (s, o') /\ covers o' pos.
Proof.
  intros Hw Hs Ht Hc; apply token_to_chars_spec in Ht; [|assumption|assumption].
  destruct Ht as ((r & Hr & Hi) & Ho).
  (* least index *)
  assert (Hleast : exists j o', fst r <= j <= i /\ nth_error (offsets e) j = Some o' /\ covers o' pos /\
     forall k ok, fst r <= k < j -> nth_error (offsets e) k = Some ok -> ~ covers ok pos).
  { revert o Ho Hc Hi; induction i as [i IH] using lt_wf_ind; intros o Ho Hc Hi.
    destruct (position_containing (firstn (i - fst r) (skipn (fst r) (offsets e))) pos 0) as [p|] eqn:E.
    - apply position_containing_spec in E; destruct E as (_ & (o1 & E1 & E2) & E3).
      rewrite Nat.sub_0_r in *.
      assert (Hil : i < length (offsets e)) by (apply nth_error_Some; congruence).
      rewrite nth_error_window in E1 by lia.
      destruct (Nat.ltb_spec (fst r + p) i) as [Hp|]; [|discriminate].
      destruct (IH (fst r + p) Hp o1 E1 E2 ltac:(lia)) as (j & o' & G1 & G2 & G3 & G4).
      exists j, o'; split; [lia|auto].
    - exists i, o; split; [lia|split; [exact Ho|split; [exact Hc|]]].
      intros k ok Hk Hok Hcov.
      assert (Hil : i < length (offsets e)) by (apply nth_error_Some; congruence).
      destruct (IH k ltac:(lia) ok Hok Hcov ltac:(lia)) as (j & o' & G1 & G2 & G3 & G4).
      assert (G : position_containing (firstn (i - fst r) (skipn (fst r) (offsets e))) pos 0 = Some (j - fst r)).
      { apply position_containing_spec; rewrite Nat.sub_0_r; split; [lia|split].
        - exists o'; split; [|exact G3]. rewrite nth_error_window by lia.
          replace (fst r + (j - fst r)) with j by lia.
          destruct (Nat.ltb_spec j i); [exact G2|lia].
        - intros q oq Hq Hoq; rewrite nth_error_window in Hoq by lia.
          destruct (Nat.ltb_spec (fst r + q) i); [|discriminate].
          apply (G4 (fst r + q)); [lia|exact Hoq]. }
      congruence. }
  destruct Hleast as (j & o' & H1 & H2 & H3 & H4).
  exists j, o'; split; [|split; [lia|split; [|exact H3]]].
  - apply (char_to_token_spec e pos s r j Hw Hs Hr); split; [lia|split; [exists o'; auto|exact H4]].
  - apply token_to_chars_spec; [assumption|assumption|].
    split; [exists r; split; [exact Hr|lia]|exact H2].
Qed.

(** ** word_to_tokens *)
Definition wsorted (ws : list (option N)) : Prop :=
  forall i j wi wj, i <= j -> nth_error ws i = Some (Some wi) -> nth_error ws j = Some (Some wj) ->
    (wi <= wj)%N.

Lemma wsorted_tail w ws : wsorted (w :: ws) -> wsorted ws.
Proof. intros H i j wi wj Hij Hi Hj; apply (H (S i) (S j)); [lia|exact Hi|exact Hj]. Qed.

Lemma scan_stop x ws word :
  wsorted (Some x :: ws) -> (word < x)%N ->
  forall j, nth_error (Some x :: ws) j <> Some (Some word).
Proof.
  intros Hs Hx j Hj. pose proof (Hs 0 j x word ltac:(lia) eq_refl Hj); lia.
Qed.

Lemma word_scan_some ws word : forall i s0 f0,
  wsorted ws -> s0 < f0 -> f0 <= i ->
  exists f, word_scan ws word i (Some s0, Some f0) = (Some s0, Some f) /\
    f0 <= f /\ f <= i + length ws /\
    (f = f0 \/ (i < f /\ nth_error ws (f - 1 - i) = Some (Some word))) /\
    (forall j, nth_error ws j = Some (Some word) -> i + j < f).
Proof.
  induction ws as [|w ws IH]; intros i s0 f0 Hso H1 H2; cbn [word_scan].
  - exists f0; repeat split; try lia. intros j Hj; destruct j; discriminate.
  - destruct (word_le w word) eqn:Ele.
    + destruct (word_is w word) eqn:Eis.
      * destruct w as [x|]; [|discriminate]; cbn [word_is] in Eis; apply N.eqb_eq in Eis; subst x.
        destruct (Nat.ltb_spec i s0); [lia|].
        destruct (Nat.leb_spec f0 i); [|lia].
        destruct (IH (i + 1) s0 (i + 1) (wsorted_tail _ _ Hso) ltac:(lia) ltac:(lia))
          as (f & G1 & G2 & G3 & G4 & G5).
        exists f; split; [exact G1|]. cbn [length]; split; [lia|split; [lia|split]].
        -- right; split; [lia|]. destruct G4 as [->|[G4 G4']].
           ++ replace (i + 1 - 1 - i) with 0 by lia; reflexivity.
           ++ replace (f - 1 - i) with (S (f - 1 - (i + 1))) by lia; exact G4'.
        -- intros [|j] Hj; [lia|]. specialize (G5 j Hj); lia.
      * destruct (IH (i + 1) s0 f0 (wsorted_tail _ _ Hso) ltac:(lia) ltac:(lia))
          as (f & G1 & G2 & G3 & G4 & G5).
        exists f; split; [exact G1|]. cbn [length]; split; [lia|split; [lia|split]].
        -- destruct G4 as [->|[G4 G4']]; [left; reflexivity|right; split; [lia|]].
           replace (f - 1 - i) with (S (f - 1 - (i + 1))) by lia; exact G4'.
        -- intros [|j] Hj; [|specialize (G5 j Hj); lia].
           cbn in Hj; inversion Hj; subst w; cbn in Eis; rewrite N.eqb_refl in Eis; discriminate.
    + exists f0; split; [reflexivity|]. cbn [length]; repeat split; try lia.
      destruct w as [x|]; [|discriminate]; cbn [word_le] in Ele.
      intros j Hj; exfalso; eapply (scan_stop x ws word Hso); [lia|exact Hj].
Qed.

Lemma word_scan_none ws word : forall i, wsorted ws ->
  (word_scan ws word i (None, None) = (None, None) /\
   forall j, nth_error ws j <> Some (Some word)) \/
  exists a b, word_scan ws word i (None, None) = (Some (i + a), Some (i + b)) /\
    a < b <= length ws /\ nth_error ws a = Some (Some word) /\
    nth_error ws (b - 1) = Some (Some word) /\
    forall j, nth_error ws j = Some (Some word) -> a <= j < b.
Proof.
  induction ws as [|w ws IH]; intros i Hso; cbn [word_scan].
  - left; split; [reflexivity|]. intros [|j]; discriminate.
  - destruct (word_le w word) eqn:Ele.
    + destruct (word_is w word) eqn:Eis.
      * destruct w as [x|]; [|discriminate]; cbn [word_is] in Eis; apply N.eqb_eq in Eis; subst x.
        right. destruct (word_scan_some ws word (i + 1) i (i + 1) (wsorted_tail _ _ Hso) ltac:(lia) ltac:(lia))
          as (f & G1 & G2 & G3 & G4 & G5).
        exists 0, (f - i). rewrite G1. split; [f_equal; f_equal; lia|].
        cbn [length]; split; [lia|split; [reflexivity|split]].
        -- destruct G4 as [->|[G4 G4']].
           ++ replace (i + 1 - i - 1) with 0 by lia; reflexivity.
           ++ replace (f - i - 1) with (S (f - 1 - (i + 1))) by lia; exact G4'.
        -- intros [|j] Hj; [lia|]. specialize (G5 j Hj); lia.
      * assert (Hne : forall j, nth_error (w :: ws) j = Some (Some word) ->
                  exists j', j = S j' /\ nth_error ws j' = Some (Some word)).
        { intros [|j] Hj; [|exists j; auto].
          cbn in Hj; inversion Hj; subst w; cbn in Eis; rewrite N.eqb_refl in Eis; discriminate. }
        destruct (IH (i + 1) (wsorted_tail _ _ Hso)) as [[G1 G2]|(a & b & G1 & G2 & G3 & G4 & G5)].
        -- left; split; [exact G1|]. intros j Hj; destruct (Hne j Hj) as (j' & -> & Hj').
           exact (G2 _ Hj').
        -- right; exists (S a), (S b); split; [rewrite G1; f_equal; f_equal; lia|].
           cbn [length]; split; [lia|split; [exact G3|split]].
           ++ replace (S b - 1) with (S (b - 1)) by lia; exact G4.
           ++ intros j Hj; destruct (Hne j Hj) as (j' & -> & Hj'); specialize (G5 _ Hj'); lia.
    + left; split; [reflexivity|].
      destruct w as [x|]; [|discriminate]; cbn [word_le] in Ele.
      apply scan_stop; [exact Hso|lia].
Qed.

Lemma word_to_tokens_spec e word s r :
  ranges_wf e -> same_lengths e -> seq_span e s r -> words_sorted e r ->
  match word_to_tokens e word s with
  | None => forall i, fst r <= i < snd r -> nth_error (words e) i <> Some (Some word)
  | Some (a, b) =>
      fst r <= a /\ a < b /\ b <= snd r /\
      nth_error (words e) a = Some (Some word) /\
      nth_error (words e) (b - 1) = Some (Some word) /\
      forall i, fst r <= i < snd r -> nth_error (words e) i = Some (Some word) -> a <= i < b
  end.
Proof.
  intros Hw Hs Hr Hso; unfold word_to_tokens.
  rewrite (sequence_range_span e s r Hw Hr).
  pose proof (seq_span_bounds e s r Hw Hr) as Hb; destruct r as [a b]; cbn [fst snd] in *.
  destruct Hs as (_ & _ & Hs & _).
  unfold get_range.
  replace ((a <=? b) && (b <=? length (words e))) with true by lia.
  set (ws := firstn (b - a) (skipn a (words e))).
  assert (Hnth : forall k, nth_error ws k = if a + k <? b then nth_error (words e) (a + k) else None).
  { intros k; apply nth_error_window; lia. }
  assert (Hws : wsorted ws).
  { intros i j wi wj Hij Hi Hj; rewrite Hnth in Hi, Hj.
    destruct (Nat.ltb_spec (a + i) b); [|discriminate].
    destruct (Nat.ltb_spec (a + j) b); [|discriminate].
    apply (Hso (a + i) (a + j) wi wj); cbn [fst snd]; try lia; assumption. }
  destruct (word_scan_none ws word 0 Hws) as [[G1 G2]|(x & y & G1 & G2 & G3 & G4 & G5)]; rewrite G1.
  - intros i Hi Hni; apply (G2 (i - a)). rewrite Hnth.
    replace (a + (i - a)) with i by lia. destruct (Nat.ltb_spec i b); [exact Hni|lia].
  - rewrite !Nat.add_0_l. rewrite Hnth in G3, G4.
    destruct (Nat.ltb_spec (a + x) b); [|discriminate].
    destruct (Nat.ltb_spec (a + (y - 1)) b); [|discriminate].
    replace (a + (y - 1)) with (a + y - 1) in * by lia.
    repeat split; try lia; try assumption.
    + specialize (G5 (i - a)). rewrite Hnth in G5. replace (a + (i - a)) with i in G5 by lia.
      destruct (Nat.ltb_spec i b); [|lia]. specialize (G5 H2); lia.
    + specialize (G5 (i - a)). rewrite Hnth in G5. replace (a + (i - a)) with i in G5 by lia.
      destruct (Nat.ltb_spec i b); [|lia]. specialize (G5 H2); lia.
Qed.

Lemma word_to_chars_spec e word s r :
  ranges_wf e -> same_lengths e -> seq_span e s r -> words_sorted e r ->
  match word_to_tokens e word s with
  | None => word_to_chars e word s = Ok None
  | Some (a, b) => exists o1 o2, nth_error (offsets e) a = Some o1 /\
                     nth_error (offsets e) (b - 1) = Some o2 /\
                     word_to_chars e word s = Ok (Some (fst o1, snd o2))
  end.
Proof.
  intros Hw Hs Hr Hso; pose proof (word_to_tokens_spec e word s r Hw Hs Hr Hso) as H.
  unfold word_to_chars. destruct (word_to_tokens e word s) as [[a b]|]; [|reflexivity].
  destruct H as (H1 & H2 & H3 & _).
  pose proof (seq_span_bounds e s r Hw Hr) as Hb.
  destruct Hs as (_ & _ & _ & Hs & _).
  destruct (nth_error (offsets e) a) as [o1|] eqn:E1; [|apply nth_error_None in E1; lia].
  destruct (nth_error (offsets e) (b - 1)) as [o2|] eqn:E2; [|apply nth_error_None in E2; lia].
  exists o1, o2; repeat split.
  destruct (Nat.eqb_spec b 0); [lia|reflexivity].
Qed.

(** ** get_sequence_ids *)
Lemma splice_const_ok {A} (l : list A) a b x :
  a <= b -> b <= length l ->
  exists l', splice_const l a b x = Ok l' /\ length l' = length l /\
    forall i, nth_error l' i = if (a <=? i) && (i <? b) then Some x else nth_error l i.
Proof.
  intros Hab Hb; unfold splice_const.
  replace ((a <=? b) && (b <=? length l)) with true by lia.
  eexists; split; [reflexivity|]. split.
  { rewrite !app_length, firstn_length, repeat_length, skipn_length; lia. }
  intros i.
  assert (Hf : length (firstn a l) = a) by (rewrite firstn_length; lia).
  destruct (Nat.leb_spec a i) as [Hai|Hai]; cbn [andb].
  - rewrite nth_error_app2 by lia. rewrite Hf.
    destruct (Nat.ltb_spec i b) as [Hib|Hib].
    + rewrite nth_error_app1 by (rewrite repeat_length; lia).
      apply nth_error_repeat; lia.
    + rewrite nth_error_app2 by (rewrite repeat_length; lia).
      rewrite repeat_length.
      clear -Hib Hab Hai. replace i with (b + (i - a - (b - a))) at 2 by lia.
      generalize (i - a - (b - a)); clear; intros k; revert l; induction b as [|b IH]; intros l; [reflexivity|].
      destruct l; [destruct k; reflexivity|]. cbn [skipn Nat.add nth_error]; apply IH.
  - rewrite nth_error_app1 by lia.
    clear -Hai. revert l i Hai; induction a as [|a IH]; intros l i Hai; [lia|].
    destruct l; [reflexivity|]. destruct i; [reflexivity|]. cbn [firstn nth_error]; apply IH; lia.
Qed.

Lemma sequence_ids_loop_ok e seqs : forall acc,
  ranges_wf e -> (forall s, In s seqs -> exists r, seq_span e s r) ->
  length acc = enc_len e ->
  exists l, sequence_ids_loop e seqs acc = Ok l /\ length l = enc_len e /\
    forall i, i < enc_len e ->
      (forall s, In s seqs -> belongs e i s -> nth_error l i = Some (Some s)) /\
      ((forall s, In s seqs -> ~ belongs e i s) -> nth_error l i = nth_error acc i).
Proof.
  induction seqs as [|s seqs IH]; intros acc Hw Hsp Hacc; cbn [sequence_ids_loop].
  - exists acc; split; [reflexivity|split; [exact Hacc|]]. intros i Hi; split; [intros s []|reflexivity].
  - destruct (Hsp s (or_introl eq_refl)) as [[a b] Hr].
    rewrite (sequence_range_span e s _ Hw Hr).
    pose proof (seq_span_bounds e s _ Hw Hr) as Hb; cbn [fst snd] in Hb.
    destruct (splice_const_ok acc a b (Some s)) as (acc' & G1 & G2 & G3); [lia|lia|].
    rewrite G1; cbn [bind].
    destruct (IH acc' Hw) as (l & L1 & L2 & L3); [intros s' Hs'; apply Hsp; right; exact Hs'|lia|].
    exists l; split; [exact L1|split; [exact L2|]]. intros i Hi; destruct (L3 i Hi) as [L4 L5]; split.
    + intros s' [<-|Hs'] Hbel; [|apply L4; assumption].
      destruct (in_dec Nat.eq_dec s seqs) as [Hin|Hnin]; [apply L4; assumption|].
      rewrite L5.
      * rewrite G3. destruct Hbel as (r' & Hr' & Hi').
        assert (r' = (a, b)).
        { rewrite <- (sequence_range_span e s _ Hw Hr), <- (sequence_range_span e s _ Hw Hr'); reflexivity. }
        subst r'; cbn [fst snd] in Hi'. replace ((a <=? i) && (i <? b)) with true by lia; reflexivity.
      * intros s' Hs' Hb'. apply Hnin.
        rewrite (belongs_unique e i s s' Hw Hbel Hb'); exact Hs'.
    + intros Hno. rewrite L5 by (intros s' Hs'; apply Hno; right; exact Hs').
      rewrite G3. destruct ((a <=? i) && (i <? b)) eqn:E; [|reflexivity].
      exfalso; apply (Hno s (or_introl eq_refl)); exists (a, b); split; [exact Hr|cbn; lia].
Qed.

Lemma get_sequence_ids_spec e :
  ranges_wf e ->
  (forall s, s < n_sequences e <-> exists r, seq_span e s r) ->
  exists l, get_sequence_ids e = Ok l /\ length l = enc_len e /\
    forall i s, nth_error l i = Some (Some s) <-> belongs e i s.
Proof.
  intros Hw Hk; unfold get_sequence_ids.
  destruct (sequence_ids_loop_ok e (seq 0 (n_sequences e)) (repeat None (enc_len e)) Hw)
    as (l & L1 & L2 & L3).
  - intros s Hs; apply in_seq in Hs; apply Hk; lia.
  - apply repeat_length.
  - exists l; split; [exact L1|split; [exact L2|]]. intros i s; split.
    + intros Hn. assert (Hi : i < enc_len e) by (rewrite <- L2; apply nth_error_Some; congruence).
      destruct (L3 i Hi) as [L4 L5].
      destruct (token_to_sequence e i) as [s'|] eqn:E.
      * apply token_to_sequence_spec in E; [|assumption|assumption].
        rewrite (L4 s') in Hn; [inversion Hn; subst; exact E| |exact E].
        apply in_seq. destruct E as (r & Hr & _).
        assert (s' < n_sequences e) by (apply Hk; exists r; exact Hr). lia.
      * exfalso. rewrite L5 in Hn.
        -- rewrite nth_error_repeat in Hn by exact Hi; discriminate.
        -- intros s' _ Hb; apply token_to_sequence_spec in Hb; [congruence|assumption|assumption].
    + intros Hb. pose proof (belongs_lt e i s Hw Hb) as Hi.
      destruct (L3 i Hi) as [L4 _]; apply L4; [|exact Hb].
      apply in_seq; destruct Hb as (r & Hr & _).
      assert (s < n_sequences e) by (apply Hk; exists r; exact Hr). lia.
Qed.
