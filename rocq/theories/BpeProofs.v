(** Proofs about the BPE model. *)
From Verif Require Import Base StrBytes ListFacts Utf8 AMap EncodingModel BpeWordModel BpeWordSpec BpeWordProofs BpeModel BpeSpec.

Lemma pair_eqb_eq a b : pair_eqb a b = true <-> a = b.
Proof.
  destruct a as [a1 a2], b as [b1 b2]. unfold pair_eqb. cbn. rewrite andb_true_iff, !N.eqb_eq. split; [intros [-> ->]; reflexivity|].
  intros H. injection H as -> ->. auto.
Qed.

Lemma Neqb_eq a b : N.eqb a b = true <-> a = b.
Proof. apply N.eqb_eq. Qed.

Lemma key_aget (vocab : list (str * N)) t : In t (map fst vocab) <-> exists i, aget str_eqb t vocab = Some i.
Proof.
  split; [apply (aget_some_key str_eqb str_eqb_eq)|]. intros (i & H). apply (aget_In str_eqb str_eqb_eq) in H. apply (in_map fst) in H. exact H.
Qed.

Lemma in_aget (vocab : list (str * N)) t i : NoDup (map fst vocab) -> In (t, i) vocab <-> aget str_eqb t vocab = Some i.
Proof. intros D. split; [apply (In_aget str_eqb str_eqb_eq); exact D|apply (aget_In str_eqb str_eqb_eq)]. Qed.

(** ** The reversed vocabulary *)
Lemma fold_reverse vocab : forall acc i t,
  aget N.eqb i (fold_left (fun acc (ti : str * N) => aset N.eqb (snd ti) (fst ti) acc) vocab acc) = Some t ->
  In (t, i) vocab \/ aget N.eqb i acc = Some t.
Proof.
  induction vocab as [|[u j] vocab IH]; intros acc i t H; cbn in *; [auto|].
  destruct (IH _ _ _ H) as [X|X]; [auto|]. rewrite (aget_aset N.eqb Neqb_eq) in X.
  destruct (N.eqb i j) eqn:E; [|auto]. apply N.eqb_eq in E. subst. injection X as ->. auto.
Qed.

Lemma fold_reverse_has vocab : forall acc i,
  (In i (map snd vocab) \/ aget N.eqb i acc <> None) ->
  aget N.eqb i (fold_left (fun acc (ti : str * N) => aset N.eqb (snd ti) (fst ti) acc) vocab acc) <> None.
Proof.
  induction vocab as [|[u j] vocab IH]; intros acc i H; cbn in *; [destruct H as [[]|H]; exact H|].
  apply IH. rewrite (aget_aset N.eqb Neqb_eq). destruct (N.eqb i j) eqn:E; [right; discriminate|].
  apply N.eqb_neq in E. destruct H as [[H|H]|H]; [congruence|auto|auto].
Qed.

Lemma reverse_vocab_in vocab i t : aget N.eqb i (reverse_vocab vocab) = Some t -> In (t, i) vocab.
Proof. intros H. destruct (fold_reverse _ _ _ _ H) as [X|X]; [exact X|discriminate]. Qed.

Lemma reverse_vocab_has vocab t i : In (t, i) vocab -> exists t', aget N.eqb i (reverse_vocab vocab) = Some t'.
Proof.
  intros H. destruct (aget N.eqb i (reverse_vocab vocab)) as [t'|] eqn:E; [eauto|]. exfalso.
  apply (fold_reverse_has vocab [] i); [left; apply (in_map snd) in H; exact H|exact E].
Qed.

Lemma snd_inj (vocab : list (str * N)) t u i : NoDup (map snd vocab) -> In (t, i) vocab -> In (u, i) vocab -> t = u.
Proof.
  induction vocab as [|[v j] vocab IH]; intros D H1 H2; [destruct H1|]. cbn in *. inversion D as [|? ? D1 D2]; subst.
  destruct H1 as [H1|H1]; destruct H2 as [H2|H2].
  - congruence.
  - injection H1 as -> ->. exfalso. apply D1. apply (in_map snd) in H2. exact H2.
  - injection H2 as -> ->. exfalso. apply D1. apply (in_map snd) in H1. exact H1.
  - apply IH; assumption.
Qed.

Lemma reverse_vocab_iff vocab t i : NoDup (map snd vocab) -> aget N.eqb i (reverse_vocab vocab) = Some t <-> In (t, i) vocab.
Proof.
  intros D. split; [apply reverse_vocab_in|]. intros H. destruct (reverse_vocab_has _ _ _ H) as (t' & E). rewrite E. f_equal.
  apply reverse_vocab_in in E. eapply snd_inj; eauto.
Qed.

Lemma max_blen_acc (vocab : list (str * N)) : forall acc, acc <= fold_left (fun acc ti => Nat.max acc (blen (fst ti))) vocab acc /\
  forall t i, In (t, i) vocab -> blen t <= fold_left (fun acc ti => Nat.max acc (blen (fst ti))) vocab acc.
Proof.
  induction vocab as [|[u j] vocab IH]; intros acc; cbn [fold_left fst]; [split; [lia|intros t i []]|].
  destruct (IH (Nat.max acc (blen u))) as [A B]. split; [lia|]. intros t i [H|H]; [injection H as -> ->; lia|eauto].
Qed.

Lemma max_blen_in vocab t i : In (t, i) vocab -> blen t <= max_blen vocab.
Proof. apply max_blen_acc. Qed.

(** ** Building *)
Lemma build_merge_ok vocab pl ml i a b kv : build_merge vocab pl ml i (a, b) = Ok kv ->
  exists ia ib n p rest, kv = ((ia, ib), (N.of_nat i, n)) /\ aget str_eqb a vocab = Some ia /\ aget str_eqb b vocab = Some ib /\
    b = p ++ rest /\ blen p = pl /\ aget str_eqb (a ++ rest) vocab = Some n.
Proof.
  unfold build_merge. destruct (aget str_eqb a vocab) as [ia|]; [|discriminate]. destruct (aget str_eqb b vocab) as [ib|]; [|discriminate].
  destruct (blen b <? pl); [discriminate|]. destruct (ml <? _); [discriminate|]. destruct (str_get b pl (blen b)) as [rest|] eqn:EG; [|discriminate].
  destruct (aget str_eqb (a ++ rest) vocab) as [n|] eqn:EN; [|discriminate]. intros H. injection H as <-.
  destruct (str_get_inv _ _ _ _ EG) as (p & q & E1 & E2 & E3). exists ia, ib, n, p, rest. repeat split; auto.
  assert (blen q = 0) by (rewrite E1, !blen_app in E3; lia). apply blen_0 in H. subst q. rewrite app_nil_r in E1. exact E1.
Qed.

Lemma build_merge_accept vocab pl i a b ia ib p rest n :
  aget str_eqb a vocab = Some ia -> aget str_eqb b vocab = Some ib -> b = p ++ rest -> blen p = pl -> aget str_eqb (a ++ rest) vocab = Some n ->
  build_merge vocab pl (max_blen vocab) i (a, b) = Ok ((ia, ib), (N.of_nat i, n)).
Proof.
  intros HA HB EB EP HN. unfold build_merge. rewrite HA, HB.
  assert (LB : blen b = pl + blen rest) by (subst b; rewrite blen_app; lia).
  replace (blen b <? pl) with false by (symmetry; apply Nat.ltb_ge; lia).
  assert (ML : blen a + blen rest <= max_blen vocab).
  { rewrite <- blen_app. eapply max_blen_in. apply (aget_In str_eqb str_eqb_eq). exact HN. }
  replace (max_blen vocab <? blen a + (blen b - pl)) with false by (symmetry; apply Nat.ltb_ge; lia).
  replace (str_get b pl (blen b)) with (Some rest).
  - rewrite HN. reflexivity.
  - symmetry. subst b pl. rewrite <- (app_nil_r (p ++ rest)) at 1. rewrite <- app_assoc. rewrite blen_app. apply str_get_app.
Qed.

(** The merge at index [j] joins the ids [ia] and [ib]. *)
Definition joins (vocab : list (str * N)) (merges : list (str * str)) (j : nat) (ia ib : N) : Prop :=
  exists a b, nth_error merges j = Some (a, b) /\ aget str_eqb a vocab = Some ia /\ aget str_eqb b vocab = Some ib.

Lemma build_merges_ok vocab pl ml merges : forall i acc mm, build_merges vocab pl ml i merges acc = Ok mm ->
  (forall a b, In (a, b) merges -> exists ia ib p rest n, aget str_eqb a vocab = Some ia /\ aget str_eqb b vocab = Some ib /\ b = p ++ rest /\ blen p = pl /\ aget str_eqb (a ++ rest) vocab = Some n) /\
  (forall ia ib r n, aget pair_eqb (ia, ib) mm = Some (r, n) <->
     (exists j a b p rest, r = N.of_nat (i + j) /\ nth_error merges j = Some (a, b) /\ aget str_eqb a vocab = Some ia /\ aget str_eqb b vocab = Some ib /\ b = p ++ rest /\ blen p = pl /\
        aget str_eqb (a ++ rest) vocab = Some n /\ forall j', j < j' -> ~ joins vocab merges j' ia ib) \/
     ((forall j, ~ joins vocab merges j ia ib) /\ aget pair_eqb (ia, ib) acc = Some (r, n))).
Proof.
  induction merges as [|[a b] merges IH]; intros i acc mm H.
  - cbn in H. injection H as <-. split; [intros a b []|]. intros ia ib r n. split.
    + intros H. right. split; [|exact H]. intros j (x & y & E & _). destruct j; discriminate.
    + intros [(j & x & y & p & rest & _ & E & _)|[_ H]]; [destruct j; discriminate|exact H].
  - cbn [build_merges] in H. apply bind_ok in H. destruct H as (kv & HK & H).
    destruct (build_merge_ok _ _ _ _ _ _ _ HK) as (ia & ib & n & p & rest & -> & HA & HB & EB & EP & HN). cbn [fst snd] in H.
    destruct (IH _ _ _ H) as [I1 I2]. split.
    + intros x y [E|E]; [injection E as <- <-; exists ia, ib, p, rest, n; auto|apply I1; exact E].
    + intros ja jb r k. rewrite I2. rewrite (aget_aset pair_eqb pair_eqb_eq). split.
      * intros [(j & x & y & p' & rest' & E1 & E2 & E3 & E4 & E5 & E6 & E7 & E8)|[E1 E2]].
        -- left. exists (S j), x, y, p', rest'. split; [rewrite E1; f_equal; lia|]. cbn [nth_error]. repeat split; auto.
           intros [|j'] LT; [lia|]. intros (u & v & X). apply (E8 j'); [lia|]. exists u, v. exact X.
        -- destruct (pair_eqb (ja, jb) (ia, ib)) eqn:EQ.
           ++ apply pair_eqb_eq in EQ. injection EQ as -> ->. injection E2 as <- <-. left. exists 0, a, b, p, rest. rewrite Nat.add_0_r. cbn [nth_error]. repeat split; auto.
              intros [|j'] LT; [lia|]. intros (u & v & X). apply (E1 j'). exists u, v. exact X.
           ++ right. split; [|exact E2]. intros [|j] (u & v & X & Y & Z).
              ** cbn in X. injection X as <- <-. rewrite HA in Y. rewrite HB in Z. injection Y as ->. injection Z as ->.
                 assert (pair_eqb (ja, jb) (ja, jb) = true) by (apply pair_eqb_eq; reflexivity). congruence.
              ** apply (E1 j). exists u, v. auto.
      * intros [(j & x & y & p' & rest' & E1 & E2 & E3 & E4 & E5 & E6 & E7 & E8)|[E1 E2]].
        -- destruct j as [|j].
           ++ cbn in E2. injection E2 as <- <-. right. split.
              ** intros j' (u & v & X). apply (E8 (S j')); [lia|]. exists u, v. exact X.
              ** rewrite HA in E3. rewrite HB in E4. injection E3 as <-. injection E4 as <-.
                 replace (pair_eqb (ia, ib) (ia, ib)) with true by (symmetry; apply pair_eqb_eq; reflexivity). f_equal.
                 assert (ER : p ++ rest = p' ++ rest') by congruence. assert (EL : blen p = blen p') by lia.
                 destruct (blen_split_eq _ _ _ _ ER EL) as [_ <-]. rewrite HN in E7. injection E7 as <-. rewrite E1, Nat.add_0_r. reflexivity.
           ++ left. exists j, x, y, p', rest'. split; [rewrite E1; f_equal; lia|]. repeat split; auto.
              intros j' LT (u & v & X). apply (E8 (S j')); [lia|]. exists u, v. exact X.
        -- right. split; [intros j (u & v & X); apply (E1 (S j)); exists u, v; exact X|].
           destruct (pair_eqb (ja, jb) (ia, ib)) eqn:EQ; [|exact E2]. exfalso. apply pair_eqb_eq in EQ. injection EQ as -> ->.
           apply (E1 0). exists a, b. auto.
Qed.

Lemma build_merges_accept vocab prefix merges : forall i acc, acceptable vocab prefix merges ->
  exists mm, build_merges vocab (opt_blen prefix) (max_blen vocab) i merges acc = Ok mm.
Proof.
  induction merges as [|[a b] merges IH]; intros i acc A; [cbn; eauto|].
  destruct (A a b (or_introl eq_refl)) as (HA & HB & t & (p & rest & EB & EP & ET) & HT).
  apply key_aget in HA, HB, HT. destruct HA as (ia & HA), HB as (ib & HB), HT as (n & HT). subst t.
  cbn [build_merges]. rewrite (build_merge_accept _ _ i _ _ _ _ _ _ _ HA HB EB EP HT). cbn [bind].
  apply IH. intros x y H. apply A. right. exact H.
Qed.

Lemma build_accepts vocab merges d unk prefix suffix fuse fallback ignore :
  (exists m, bpe_build vocab merges d unk prefix suffix fuse fallback ignore = Ok m) <-> (d <> DOutside /\ acceptable vocab prefix merges).
Proof.
  split.
  - intros (m & H). unfold bpe_build in H.
    assert (ND : d <> DOutside) by (intros ->; discriminate). split; [exact ND|].
    assert (H' : exists mm, build_merges vocab (opt_blen prefix) (max_blen vocab) 0 merges [] = Ok mm).
    { destruct d; try congruence; apply bind_ok in H; destruct H as (mm & X & _); eauto. }
    destruct H' as (mm & H'). destruct (build_merges_ok _ _ _ _ _ _ _ H') as [X _].
    intros a b HI. destruct (X _ _ HI) as (ia & ib & p & rest & n & A1 & A2 & A3 & A4 & A5).
    split; [apply key_aget; eauto|]. split; [apply key_aget; eauto|]. exists (a ++ rest). split; [exists p, rest; auto|apply key_aget; eauto].
  - intros [ND A]. destruct (build_merges_accept vocab prefix merges 0 [] A) as (mm & E). unfold bpe_build. rewrite E. destruct d; try congruence; cbn; eauto.
Qed.

Record built_facts (vocab : list (str * N)) (merges : list (str * str)) (prefix : option str) (m : bpe) : Prop := {
  bf_vocab : b_vocab m = vocab;
  bf_prefix : b_prefix m = prefix;
  bf_vocab_r : b_vocab_r m = reverse_vocab vocab;
  bf_merges : forall ia ib r n, b_lookup m ia ib = Some (r, n) <->
     exists j a b p rest, r = N.of_nat j /\ nth_error merges j = Some (a, b) /\ aget str_eqb a vocab = Some ia /\ aget str_eqb b vocab = Some ib /\ b = p ++ rest /\ blen p = opt_blen prefix /\
        aget str_eqb (a ++ rest) vocab = Some n /\ forall j', j < j' -> ~ joins vocab merges j' ia ib }.

Lemma build_facts vocab merges d unk prefix suffix fuse fallback ignore m :
  bpe_build vocab merges d unk prefix suffix fuse fallback ignore = Ok m -> built_facts vocab merges prefix m.
Proof.
  intros H. unfold bpe_build in H.
  assert (H' : exists mm, build_merges vocab (opt_blen prefix) (max_blen vocab) 0 merges [] = Ok mm /\ m = mkBpe vocab (reverse_vocab vocab) mm d unk prefix suffix fuse fallback ignore).
  { destruct d; try discriminate; apply bind_ok in H; destruct H as (mm & X & Y); injection Y as <-; eauto. }
  destruct H' as (mm & E & ->). destruct (build_merges_ok _ _ _ _ _ _ _ E) as [_ X]. constructor; try reflexivity.
  intros ia ib r n. unfold b_lookup. cbn [b_merges]. rewrite X. split; [|intros Y; left; exact Y].
  intros [Y|[_ Y]]; [exact Y|discriminate].
Qed.

(** ** Tokens of ids *)
Section built.
  Context (vocab : list (str * N)) (merges : list (str * str)) (prefix : option str) (m : bpe).
  Context (BF : built_facts vocab merges prefix m).

  Definition in_vocab (i : N) : Prop := exists t, In (t, i) vocab.

  Lemma b_id_in t i : b_id m t = Some i -> In (t, i) vocab.
  Proof. unfold b_id. rewrite (bf_vocab _ _ _ _ BF). apply (aget_In str_eqb str_eqb_eq). Qed.

  Lemma b_token_has i : in_vocab i -> exists t, b_token m i = Some t.
  Proof. intros (t & H). unfold b_token. rewrite (bf_vocab_r _ _ _ _ BF). eapply reverse_vocab_has. exact H. Qed.

  Lemma b_token_inj i t : NoDup (map snd vocab) -> b_token m i = Some t <-> In (t, i) vocab.
  Proof. intros D. unfold b_token. rewrite (bf_vocab_r _ _ _ _ BF). apply reverse_vocab_iff. exact D. Qed.

  Lemma lookup_in a b r n : b_lookup m a b = Some (r, n) -> in_vocab n.
  Proof.
    intros H. apply (bf_merges _ _ _ _ BF) in H. destruct H as (j & x & y & p & rest & _ & _ & _ & _ & _ & _ & H & _).
    exists (x ++ rest). apply (aget_In str_eqb str_eqb_eq). exact H.
  Qed.

  (** Merging adds up the lengths of the texts beyond the prefix. *)
  Definition text_weight (i : N) : Z := match b_token m i with Some t => (Z.of_nat (blen t) - Z.of_nat (opt_blen prefix))%Z | None => 0%Z end.

  Lemma built_additive : NoDup (map snd vocab) -> additive (b_lookup m) text_weight.
  Proof.
    intros D2 a b r n H. apply (bf_merges _ _ _ _ BF) in H. destruct H as (j & x & y & p & rest & _ & _ & HA & HB & EB & EP & HN & _).
    apply (aget_In str_eqb str_eqb_eq) in HA, HB, HN. apply (b_token_inj _ _ D2) in HA, HB, HN. unfold text_weight. rewrite HA, HB, HN.
    subst y. rewrite !blen_app. lia.
  Qed.
End built.

(** ** Leaves: what the loop of [merge_word] adds *)
Definition flush (unk : option (N * nat)) : list (N * nat) := match unk with Some u => [u] | None => [] end.

Fixpoint leaves (m : bpe) (first : bool) (cs : str) (unk : option (N * nat)) : res bpe_error (list (N * nat)) :=
  match cs with
  | [] => Ok (flush unk)
  | c :: cs' =>
      match b_id m (decorate m first (is_nil cs') [c]) with
      | Some id => let! l := leaves m false cs' None in Ok (flush unk ++ (id, len_utf8 c) :: l)
      | None =>
          match (if b_fallback m then map_opt (fun b => b_id m (byte_token b)) (encode_utf8 (decorate m first (is_nil cs') [c])) else None) with
          | Some tokens => let! l := leaves m false cs' unk in Ok (map (fun t => (t, 1)) tokens ++ l)
          | None =>
              match b_unk m with
              | None => leaves m false cs' unk
              | Some ut =>
                  match unk, b_fuse m with
                  | Some (ui, ul), true => leaves m false cs' (Some (ui, ul + len_utf8 c))
                  | Some (ui, ul), false => let! i := unk_id m ut in let! l := leaves m false cs' (Some (i, len_utf8 c)) in Ok ((ui, ul) :: l)
                  | None, _ => let! i := unk_id m ut in leaves m false cs' (Some (i, len_utf8 c))
                  end
              end
          end
      end
  end.

Lemma word_of_snoc L x : word_of (L ++ [x]) = word_add (word_of L) (fst x) (snd x).
Proof. destruct x. apply word_of_app. Qed.

Lemma fold_add_tokens ts : forall L, fold_left (fun w t => word_add w t 1) ts (word_of L) = word_of (L ++ map (fun t => (t, 1)) ts).
Proof.
  induction ts as [|t ts IH]; intros L; cbn; [rewrite app_nil_r; reflexivity|]. rewrite <- (word_of_app L t 1), IH, <- app_assoc. reflexivity.
Qed.

Lemma word_loop_leaves m cs : forall first L unk,
  match word_loop m first cs (word_of L) unk with
  | Ok (w, unk') => exists l, leaves m first cs unk = Ok l /\ match unk' with Some (ui, ul) => word_add w ui ul | None => w end = word_of (L ++ l)
  | Err e => leaves m first cs unk = Err e
  | Panic => False
  end.
Proof.
  induction cs as [|c cs IH]; intros first L unk.
  - cbn. exists (flush unk). split; [reflexivity|]. destruct unk as [[ui ul]|]; cbn; [symmetry; apply word_of_app|rewrite app_nil_r; reflexivity].
  - cbn [word_loop leaves]. destruct (b_id m (decorate m first (is_nil cs) [c])) as [id|].
    + assert (E : word_add (match unk with Some (ui, ul) => word_add (word_of L) ui ul | None => word_of L end) id (len_utf8 c) = word_of (L ++ flush unk ++ [(id, len_utf8 c)])).
      { rewrite app_assoc, word_of_app. destruct unk as [[ui ul]|]; cbn [flush]; [rewrite word_of_app; reflexivity|rewrite app_nil_r; reflexivity]. }
      cbv zeta. rewrite E. specialize (IH false (L ++ flush unk ++ [(id, len_utf8 c)]) None).
      destruct (word_loop m false cs (word_of (L ++ flush unk ++ [(id, len_utf8 c)])) None) as [[w u]|e|]; [|rewrite IH; reflexivity|exact IH].
      destruct IH as (l & X & Y). rewrite X. cbn [bind]. eexists. split; [reflexivity|]. rewrite Y. rewrite <- !app_assoc. reflexivity.
    + cbv zeta. destruct (if b_fallback m then _ else None) as [ts|].
      * rewrite fold_add_tokens. specialize (IH false (L ++ map (fun t => (t, 1)) ts) unk).
        destruct (word_loop m false cs _ unk) as [[w u]|e|]; [|rewrite IH; reflexivity|exact IH].
        destruct IH as (l & X & Y). rewrite X. cbn [bind]. eexists. split; [reflexivity|]. rewrite Y, <- app_assoc. reflexivity.
      * destruct (b_unk m) as [ut|]; [|apply IH]. destruct unk as [[ui ul]|].
        -- destruct (b_fuse m); [apply IH|]. destruct (unk_id m ut) as [i|e|] eqn:EU; cbn [bind]; [|reflexivity|unfold unk_id in EU; destruct (b_id m ut); discriminate].
           rewrite <- (word_of_app L ui ul). specialize (IH false (L ++ [(ui, ul)]) (Some (i, len_utf8 c))).
           destruct (word_loop m false cs _ _) as [[w u]|e|]; [|rewrite IH; reflexivity|exact IH].
           destruct IH as (l & X & Y). rewrite X. cbn [bind]. eexists. split; [reflexivity|]. rewrite Y, <- app_assoc. reflexivity.
        -- destruct (unk_id m ut) as [i|e|] eqn:EU; cbn [bind]; [apply IH|destruct (b_fuse m); reflexivity|unfold unk_id in EU; destruct (b_id m ut); discriminate].
Qed.

Lemma map_opt_length {A B} (f : A -> option B) l : forall r, map_opt f l = Some r -> length r = length l.
Proof.
  induction l as [|a l IH]; intros r H; cbn in H; [injection H as <-; reflexivity|].
  destruct (f a); [|discriminate]. destruct (map_opt f l) as [r'|] eqn:E; [|discriminate]. cbn in H. injection H as <-. cbn. rewrite (IH _ eq_refl). reflexivity.
Qed.

Lemma map_opt_all {A B} (f : A -> option B) l : (exists r, map_opt f l = Some r) <-> (forall a, In a l -> f a <> None).
Proof.
  induction l as [|a l IH]; cbn; [split; [intros _ a []|eauto]|]. split.
  - intros (r & H). destruct (f a) as [b|] eqn:EF; [|discriminate]. destruct (map_opt f l) as [r'|] eqn:E; [|discriminate].
    intros x [<-|HI]; [congruence|]. apply IH; eauto.
  - intros H. destruct (f a) as [b|] eqn:EF; [|exfalso; apply (H a); auto]. destruct (proj2 IH) as (r & E); [intros x HI; apply H; auto|]. rewrite E. cbn. eauto.
Qed.

Lemma map_opt_in {A B} (f : A -> option B) l : forall r, map_opt f l = Some r -> forall b, In b r -> exists a, In a l /\ f a = Some b.
Proof.
  induction l as [|a l IH]; intros r H b HB; cbn in H; [injection H as <-; destruct HB|].
  destruct (f a) as [b'|] eqn:EF; [|discriminate]. destruct (map_opt f l) as [r'|] eqn:E; [|discriminate]. cbn in H. injection H as <-.
  destruct HB as [<-|HB]; [exists a; cbn; auto|]. destruct (IH _ eq_refl _ HB) as (x & X & Y). exists x. cbn. auto.
Qed.

Definition pending_len (unk : option (N * nat)) : nat := match unk with Some (_, l) => l | None => 0 end.
Definition total (l : list (N * nat)) : nat := list_sum (map snd l).

Lemma total_app a b : total (a ++ b) = total a + total b.
Proof. unfold total. rewrite map_app, list_sum_app. reflexivity. Qed.

Lemma total_cons x a : total (x :: a) = snd x + total a.
Proof. reflexivity. Qed.

Lemma total_flush unk : total (flush unk) = pending_len unk.
Proof. destruct unk as [[u l]|]; cbn; lia. Qed.

Lemma total_ones ts : total (map (fun t : N => (t, 1)) ts) = length ts.
Proof. induction ts as [|t ts IH]; [reflexivity|]. cbn [map length]. rewrite total_cons. cbn [snd]. lia. Qed.

Lemma leaves_pos m cs : forall first unk l, leaves m first cs unk = Ok l -> (forall u n, unk = Some (u, n) -> 0 < n) -> Forall (fun s => 0 < snd s) l.
Proof.
  induction cs as [|c cs IH]; intros first unk l H P.
  - cbn in H. injection H as <-. destruct unk as [[u n]|]; cbn; repeat constructor. cbn. eapply P. reflexivity.
  - cbn [leaves] in H. pose proof (len_utf8_pos c) as LC.
    assert (FU : Forall (fun s => 0 < snd s) (flush unk)) by (destruct unk as [[u n]|]; cbn; repeat constructor; cbn; eapply P; reflexivity).
    destruct (b_id m (decorate m first (is_nil cs) [c])) as [id|].
    + apply bind_ok in H. destruct H as (l' & X & Y). injection Y as <-. apply Forall_app. split; [exact FU|]. constructor; [cbn; lia|]. apply (IH _ _ _ X). discriminate.
    + destruct (if b_fallback m then _ else None) as [ts|].
      * apply bind_ok in H. destruct H as (l' & X & Y). injection Y as <-. apply Forall_app. split; [|apply (IH _ _ _ X P)].
        apply Forall_forall. intros x Hx. apply in_map_iff in Hx. destruct Hx as (t & <- & _). cbn. lia.
      * destruct (b_unk m) as [ut|]; [|apply (IH _ _ _ H P)]. destruct unk as [[ui ul]|].
        -- destruct (b_fuse m).
           ++ apply (IH _ _ _ H). intros u n E. injection E as _ <-. lia.
           ++ apply bind_ok in H. destruct H as (i & _ & H). apply bind_ok in H. destruct H as (l' & X & Y). injection Y as <-.
              constructor; [cbn; eapply P; reflexivity|]. apply (IH _ _ _ X). intros u n E. injection E as _ <-. lia.
        -- assert (H' : exists i, leaves m false cs (Some (i, len_utf8 c)) = Ok l) by (destruct (b_fuse m); apply bind_ok in H; destruct H as (i & _ & H); eauto).
           destruct H' as (i & H'). apply (IH _ _ _ H'). intros u n E. injection E as _ <-. lia.
Qed.

(** [covered] seen from the middle of a word. *)
Definition covered_from (m : bpe) (first : bool) (cs : str) : Prop :=
  forall p c q, cs = p ++ c :: q ->
    known_char m (first && is_nil p) (is_nil q) c \/
    (byte_char m (first && is_nil p) (is_nil q) c /\ decorate m (first && is_nil p) (is_nil q) [c] = [c]) \/
    (~ byte_char m (first && is_nil p) (is_nil q) c /\ has_unk m).

Lemma covered_tail m first c cs : covered_from m first (c :: cs) -> covered_from m false cs.
Proof.
  intros H p x q ->. specialize (H (c :: p) x q eq_refl). cbn [is_nil] in H. rewrite andb_false_r in H. exact H.
Qed.

Lemma leaves_total m cs : forall first unk l, covered_from m first cs -> leaves m first cs unk = Ok l -> total l = pending_len unk + blen cs.
Proof.
  induction cs as [|c cs IH]; intros first unk l CV H.
  - cbn in H. injection H as <-. rewrite total_flush. cbn. lia.
  - pose proof (covered_tail _ _ _ _ CV) as CT. specialize (CV [] c cs eq_refl). cbn [is_nil] in CV. rewrite andb_true_r in CV.
    cbn [leaves] in H. cbn [blen]. destruct (b_id m (decorate m first (is_nil cs) [c])) as [id|] eqn:EI.
    + apply bind_ok in H. destruct H as (l' & X & Y). injection Y as <-. rewrite total_app, total_flush, total_cons, (IH _ _ _ CT X). cbn. lia.
    + destruct CV as [K|[[B DC]|[NB U]]]; [exfalso; apply K; exact EI| |].
      * destruct B as [FB BT]. rewrite FB in H. destruct (proj2 (map_opt_all (fun b => b_id m (byte_token b)) (encode_utf8 (decorate m first (is_nil cs) [c]))) BT) as (ts & ET).
        rewrite ET in H. apply bind_ok in H. destruct H as (l' & X & Y). injection Y as <-.
        rewrite total_app, total_ones, (IH _ _ _ CT X), (map_opt_length _ _ _ ET), DC, encode_utf8_len. cbn. lia.
      * assert (EB : (if b_fallback m then map_opt (fun b => b_id m (byte_token b)) (encode_utf8 (decorate m first (is_nil cs) [c])) else None) = None).
        { destruct (b_fallback m) eqn:FB; [|reflexivity]. destruct (map_opt _ _) as [ts|] eqn:ET; [|reflexivity]. exfalso. apply NB. split; [exact FB|].
          apply map_opt_all. eauto. }
        rewrite EB in H. destruct U as (t & EU & _). rewrite EU in H. destruct unk as [[ui ul]|].
        -- destruct (b_fuse m).
           ++ rewrite (IH _ _ _ CT H). cbn. lia.
           ++ apply bind_ok in H. destruct H as (i & _ & H). apply bind_ok in H. destruct H as (l' & X & Y). injection Y as <-.
              rewrite total_cons, (IH _ _ _ CT X). cbn. lia.
        -- assert (H' : exists i, leaves m false cs (Some (i, len_utf8 c)) = Ok l) by (destruct (b_fuse m); apply bind_ok in H; destruct H as (i & _ & H); eauto).
           destruct H' as (i & H'). rewrite (IH _ _ _ CT H'). cbn. lia.
Qed.

(** A known character cuts the list of leaves. *)
Lemma leaves_cut m c q id : forall pre first unk l, covered_from m first (pre ++ c :: q) ->
  b_id m (decorate m (first && is_nil pre) (is_nil q) [c]) = Some id ->
  leaves m first (pre ++ c :: q) unk = Ok l ->
  exists A l', total A = pending_len unk + blen pre /\ leaves m false q None = Ok l' /\ l = A ++ (id, len_utf8 c) :: l'.
Proof.
  induction pre as [|d pre IH]; intros first unk l CV HI H.
  - cbn [app is_nil] in *. rewrite andb_true_r in HI. cbn [leaves] in H. rewrite HI in H. apply bind_ok in H. destruct H as (l' & X & Y). injection Y as <-.
    exists (flush unk), l'. split; [rewrite total_flush; cbn; lia|]. auto.
  - pose proof (covered_tail _ _ _ _ CV) as CT. specialize (CV [] d (pre ++ c :: q) eq_refl). cbn [is_nil] in CV. rewrite andb_true_r in CV.
    cbn [is_nil] in HI. rewrite andb_false_r in HI. assert (HI' : b_id m (decorate m (false && is_nil pre) (is_nil q) [c]) = Some id) by exact HI.
    change ((d :: pre) ++ c :: q) with (d :: (pre ++ c :: q)) in H. cbn [leaves] in H. cbn [blen].
    destruct (b_id m (decorate m first (is_nil (pre ++ c :: q)) [d])) as [id'|] eqn:EI.
    + apply bind_ok in H. destruct H as (l1 & X & Y). injection Y as <-. destruct (IH _ _ _ CT HI' X) as (A & l' & T & L & ->).
      exists (flush unk ++ (id', len_utf8 d) :: A), l'. split; [rewrite total_app, total_flush, total_cons, T; cbn; lia|]. split; [exact L|]. rewrite <- app_assoc. reflexivity.
    + destruct CV as [K|[[B DC]|[NB U]]]; [exfalso; apply K; exact EI| |].
      * destruct B as [FB BT]. rewrite FB in H. destruct (proj2 (map_opt_all (fun b => b_id m (byte_token b)) (encode_utf8 (decorate m first (is_nil (pre ++ c :: q)) [d]))) BT) as (ts & ET).
        rewrite ET in H. apply bind_ok in H. destruct H as (l1 & X & Y). injection Y as <-. destruct (IH _ _ _ CT HI' X) as (A & l' & T & L & ->).
        exists (map (fun t => (t, 1)) ts ++ A), l'. split; [rewrite total_app, total_ones, T, (map_opt_length _ _ _ ET), DC, encode_utf8_len; cbn; lia|]. split; [exact L|]. rewrite <- app_assoc. reflexivity.
      * assert (EB : (if b_fallback m then map_opt (fun b => b_id m (byte_token b)) (encode_utf8 (decorate m first (is_nil (pre ++ c :: q)) [d])) else None) = None).
        { destruct (b_fallback m) eqn:FB; [|reflexivity]. destruct (map_opt _ _) as [ts|] eqn:ET; [|reflexivity]. exfalso. apply NB. split; [exact FB|].
          apply map_opt_all. eauto. }
        rewrite EB in H. destruct U as (t & EU & _). rewrite EU in H. destruct unk as [[ui ul]|].
        -- destruct (b_fuse m).
           ++ destruct (IH _ _ _ CT HI' H) as (A & l' & T & L & ->). exists A, l'. split; [rewrite T; cbn; lia|]. auto.
           ++ apply bind_ok in H. destruct H as (i & _ & H). apply bind_ok in H. destruct H as (l1 & X & Y). injection Y as <-.
              destruct (IH _ _ _ CT HI' X) as (A & l' & T & L & ->). exists ((ui, ul) :: A), l'. split; [rewrite total_cons, T; cbn; lia|]. auto.
        -- assert (H' : exists i, leaves m false (pre ++ c :: q) (Some (i, len_utf8 d)) = Ok l) by (destruct (b_fuse m); apply bind_ok in H; destruct H as (i & _ & H); eauto).
           destruct H' as (i & H'). destruct (IH _ _ _ CT HI' H') as (A & l' & T & L & ->). exists A, l'. split; [rewrite T; cbn; lia|]. auto.
Qed.

(** The leaves of a run of known characters. *)
Inductive known_run (m : bpe) : bool -> str -> str -> list (N * nat) -> Prop :=
| kr_nil : forall first post, known_run m first [] post []
| kr_cons : forall first c x post id l,
    b_id m (decorate m first (is_nil (x ++ post)) [c]) = Some id -> known_run m false x post l ->
    known_run m first (c :: x) post ((id, len_utf8 c) :: l).

Lemma leaves_run m post : forall x first, (forall p c q, x = p ++ c :: q -> known_char m (first && is_nil p) (is_nil (q ++ post)) c) ->
  forall unk l, unk = None -> leaves m first (x ++ post) unk = Ok l -> exists K l', known_run m first x post K /\ l = K ++ l' /\ total K = blen x.
Proof.
  induction x as [|c x IH]; intros first AK unk l -> H.
  - exists [], l. split; [constructor|]. auto.
  - pose proof (AK [] c x eq_refl) as KC. cbn [is_nil] in KC. rewrite andb_true_r in KC. unfold known_char in KC.
    change ((c :: x) ++ post) with (c :: (x ++ post)) in H. cbn [leaves] in H.
    destruct (b_id m (decorate m first (is_nil (x ++ post)) [c])) as [id|] eqn:EI; [|congruence].
    apply bind_ok in H. destruct H as (l1 & X & Y). injection Y as <-.
    destruct (IH false) with (unk := @None (N * nat)) (l := l1) as (K & l' & KR & -> & T); [|reflexivity|exact X|].
    + intros p d q E. specialize (AK (c :: p) d q). cbn [is_nil app] in AK. rewrite andb_false_r in AK. apply AK. rewrite E. reflexivity.
    + exists ((id, len_utf8 c) :: K), l'. split; [constructor; assumption|]. split; [reflexivity|]. rewrite total_cons, T. reflexivity.
Qed.

(** The leaves of a word around a non-empty run of known characters. *)
Lemma leaves_around m pre x post l : covered m (pre ++ x ++ post) -> x <> [] -> all_known m pre x post ->
  leaves m true (pre ++ x ++ post) None = Ok l ->
  exists A K B, l = A ++ K ++ B /\ total A = blen pre /\ total K = blen x /\ known_run m (is_nil pre) x post K.
Proof.
  intros CV NE AK H. destruct x as [|c x]; [congruence|]. clear NE.
  pose proof (AK [] c x eq_refl) as KC. rewrite app_nil_r in KC. unfold known_char in KC.
  destruct (b_id m (decorate m (is_nil pre) (is_nil (x ++ post)) [c])) as [id|] eqn:EI; [|congruence].
  assert (CF : covered_from m true (pre ++ c :: (x ++ post))) by (intros p d q E; cbn [andb]; apply CV; exact E).
  destruct (leaves_cut m c (x ++ post) id pre true None l CF EI H) as (A & l' & TA & L & ->).
  destruct (leaves_run m post x false) with (unk := @None (N * nat)) (l := l') as (K & B & KR & -> & TK); [|reflexivity|exact L|].
  - intros p d q E. cbn [andb]. specialize (AK (c :: p) d q). cbn [app] in AK. rewrite E in AK. specialize (AK eq_refl).
    replace (is_nil (pre ++ c :: p)) with false in AK by (destruct pre; reflexivity). exact AK.
  - exists A, ((id, len_utf8 c) :: K), B. split; [reflexivity|]. split; [exact TA|]. split; [rewrite total_cons, TK; reflexivity|]. constructor; assumption.
Qed.

(** ** Groups *)
(** [spells merges xs n]: merging the ids [xs] in some order gives [n]. *)
Inductive spells (merges : merge_map) : list N -> N -> Prop :=
| sp_one : forall i, spells merges [i] i
| sp_two : forall xs ys a b r n, spells merges xs a -> spells merges ys b -> merges a b = Some (r, n) -> spells merges (xs ++ ys) n.

Definition groups (merges : merge_map) (l out : list (N * nat)) : Prop :=
  exists gs, concat gs = l /\ Forall2 (fun g (t : N * nat) => total g = snd t /\ spells merges (map fst g) (fst t)) gs out.

Lemma groups_refl merges l : groups merges l l.
Proof.
  exists (map (fun x => [x]) l). split.
  - induction l as [|x l IH]; cbn; [reflexivity|]. rewrite IH. reflexivity.
  - induction l as [|[c n] l IH]; cbn; constructor; auto. cbn. split; [cbn; lia|constructor].
Qed.

Lemma groups_step merges l a k r b : groups merges l a -> applies merges a k r b -> groups merges l b.
Proof.
  intros (gs & E & F) [pre x lx y ly post n -> _ HM ->].
  apply Forall2_app_inv_r in F. destruct F as (g1 & g2 & F1 & F2 & ->).
  inversion F2 as [|gx ? g3 ? [T1 S1] F3]; subst. inversion F3 as [|gy ? g4 ? [T2 S2] F4]; subst. cbn in *.
  exists (g1 ++ (gx ++ gy) :: g4). split; [rewrite !concat_app; cbn; rewrite <- app_assoc; reflexivity|].
  apply Forall2_app; [exact F1|]. constructor; [|exact F4]. cbn. split; [rewrite total_app; lia|]. rewrite map_app. econstructor; eassumption.
Qed.

Lemma derives_groups merges l out : derives merges l out -> groups merges l out.
Proof.
  intros H. enough (G : forall l0, groups merges l0 l -> groups merges l0 out) by (apply G; apply groups_refl).
  induction H as [l|l l1 l2 (k & r & A) _ IH]; intros l0 G; [exact G|]. apply IH. eapply groups_step; eauto.
Qed.

Lemma spells_nonempty merges xs n : spells merges xs n -> xs <> [].
Proof. induction 1 as [|xs ys a b r n _ IH1 _ IH2 _]; [discriminate|]. destruct xs; [congruence|discriminate]. Qed.

Lemma known_run_app m a : forall first b post K, known_run m first (a ++ b) post K -> a <> [] ->
  exists Ka Kb, K = Ka ++ Kb /\ length Ka = length a /\ known_run m first a (b ++ post) Ka /\ known_run m false b post Kb.
Proof.
  induction a as [|c a IH]; intros first b post K H NE; [congruence|]. cbn [app] in H. inversion H as [|? ? ? ? id l EI KR]; subst.
  destruct a as [|d a].
  - cbn [app] in *. exists [(id, len_utf8 c)], l. split; [reflexivity|]. split; [reflexivity|]. split; [|exact KR]. constructor; [exact EI|constructor].
  - destruct (IH _ _ _ _ KR) as (Ka & Kb & -> & L & R1 & R2); [discriminate|]. exists ((id, len_utf8 c) :: Ka), Kb.
    split; [reflexivity|]. split; [cbn in *; lia|]. split; [|exact R2]. constructor; [|exact R1]. rewrite app_assoc. exact EI.
Qed.

Lemma known_run_length m first x post K : known_run m first x post K -> length K = length x.
Proof. induction 1; cbn; lia. Qed.

Lemma decorate_nonnil m first last s : s <> [] -> decorate m first last s <> [].
Proof. intros H. unfold decorate. destruct first, last, (b_prefix m), (b_suffix m); destruct s; try congruence; cbn; destruct l; try discriminate; destruct l0; discriminate. Qed.

(** The text of merged known characters. *)
Lemma spells_text vocab merges prefix m : built_facts vocab merges prefix m -> NoDup (map snd vocab) ->
  forall ids n, spells (b_lookup m) ids n -> forall first x post K, known_run m first x post K -> map fst K = ids ->
  b_token m n = Some (decorate m first (is_nil post) x).
Proof.
  intros BF ND ids n H. induction H as [i|xs ys a b r n H1 IH1 H2 IH2 HM]; intros first x post K KR EK.
  - inversion KR as [|? c x' ? id l EI KR']; subst; [discriminate|]. cbn in EK. injection EK as -> EK. apply map_eq_nil in EK. subst l.
    inversion KR'; subst. cbn [app] in EI. apply (b_token_inj _ _ _ _ BF _ _ ND). eapply b_id_in; [exact BF|exact EI].
  - symmetry in EK.
    assert (LE : length x = length xs + length ys) by (rewrite <- (known_run_length _ _ _ _ _ KR), <- (map_length fst), <- EK, app_length; reflexivity).
    pose proof (spells_nonempty _ _ _ H1) as NX. pose proof (spells_nonempty _ _ _ H2) as NY.
    assert (EX : x = firstn (length xs) x ++ skipn (length xs) x) by (symmetry; apply firstn_skipn).
    set (x1 := firstn (length xs) x) in *. set (x2 := skipn (length xs) x) in *.
    assert (L1 : length x1 = length xs) by (unfold x1; rewrite firstn_length; lia).
    assert (L2 : length x2 = length ys) by (unfold x2; rewrite skipn_length; lia).
    clearbody x1 x2. subst x.
    assert (N1 : x1 <> []) by (intros ->; destruct xs; [congruence|discriminate]).
    assert (N2 : x2 <> []) by (intros ->; destruct ys; [congruence|discriminate]).
    destruct (known_run_app _ _ _ _ _ _ KR N1) as (Ka & Kb & -> & LK & R1 & R2).
    rewrite map_app in EK. destruct (app_split_len _ _ _ _ EK) as [EK1 EK2]; [rewrite map_length; lia|].
    specialize (IH1 _ _ _ _ R1 (eq_sym EK1)). specialize (IH2 _ _ _ _ R2 (eq_sym EK2)).
    apply (bf_merges _ _ _ _ BF) in HM. destruct HM as (j & u & v & p & rest & _ & _ & HA & HB & EB & EP & HN & _).
    apply (aget_In str_eqb str_eqb_eq) in HA, HB, HN. apply (b_token_inj _ _ _ _ BF _ _ ND) in HA, HB, HN.
    rewrite HA in IH1. rewrite HB in IH2. injection IH1 as ->. injection IH2 as ->. rewrite HN. f_equal.
    replace (is_nil (x2 ++ post)) with false by (destruct x2; [congruence|reflexivity]).
    (* [rest] is [x2] with its suffix *)
    assert (ER : rest = if is_nil post then match b_suffix m with Some s => x2 ++ s | None => x2 end else x2).
    { unfold decorate in EB. rewrite (bf_prefix _ _ _ _ BF) in EB. destruct prefix as [pf|]; cbn [opt_blen] in EP.
      - assert (EB' : pf ++ (if is_nil post then match b_suffix m with Some s => x2 ++ s | None => x2 end else x2) = p ++ rest).
        { rewrite <- EB. destruct (is_nil post); [destruct (b_suffix m); rewrite ?app_assoc; reflexivity|reflexivity]. }
        destruct (blen_split_eq _ _ _ _ EB') as [_ E]; [lia|]. symmetry. exact E.
      - apply blen_0 in EP. subst p. cbn [app] in EB. symmetry. exact EB. }
    rewrite ER. unfold decorate. rewrite (bf_prefix _ _ _ _ BF). destruct first, prefix as [pf|], (is_nil post), (b_suffix m); rewrite ?app_assoc; reflexivity.
Qed.

(** ** Words of known characters *)
Lemma leaves_known m s : forall first, (forall p c q, s = p ++ c :: q -> known_char m (first && is_nil p) (is_nil q) c) ->
  exists l, leaves m first s None = Ok l /\ known_run m first s [] l.
Proof.
  induction s as [|c s IH]; intros first AK; [exists []; split; [reflexivity|constructor]|].
  pose proof (AK [] c s eq_refl) as KC. cbn [is_nil] in KC. rewrite andb_true_r in KC. unfold known_char in KC.
  destruct (IH false) as (l & E & KR).
  { intros p d q E. specialize (AK (c :: p) d q). cbn [is_nil app] in AK. rewrite andb_false_r in AK. apply AK. rewrite E. reflexivity. }
  cbn [leaves]. destruct (b_id m (decorate m first (is_nil s) [c])) as [id|] eqn:EI; [|congruence].
  rewrite E. cbn [bind]. exists ((id, len_utf8 c) :: l). split; [reflexivity|]. constructor; [rewrite app_nil_r; exact EI|exact KR].
Qed.

Lemma known_run_mid m : forall P first s post g R, known_run m first s post (P ++ g ++ R) -> g <> [] ->
  exists pre x q, s = pre ++ x ++ q /\ blen pre = total P /\ blen x = total g /\ known_run m (first && is_nil pre) x (q ++ post) g.
Proof.
  assert (G : forall g first s post R, known_run m first s post (g ++ R) -> exists x q, s = x ++ q /\ blen x = total g /\ known_run m first x (q ++ post) g).
  { induction g as [|[i n] g IH]; intros first s post R H.
    - exists [], s. split; [reflexivity|]. split; [reflexivity|constructor].
    - cbn [app] in H. inversion H as [|? c s' ? id l EI KR]; subst. destruct (IH _ _ _ _ KR) as (x & q & -> & B & K).
      exists (c :: x), q. split; [reflexivity|]. split; [cbn [blen]; rewrite total_cons, B; reflexivity|]. constructor; [|exact K]. rewrite app_assoc. exact EI. }
  induction P as [|[i n] P IH]; intros first s post g R H NE.
  - cbn [app] in H. destruct (G _ _ _ _ _ H) as (x & q & -> & B & K). exists [], x, q. cbn [is_nil]. rewrite andb_true_r. repeat split; auto.
  - cbn [app] in H. inversion H as [|? c s' ? id l EI KR]; subst. destruct (IH _ _ _ _ _ KR NE) as (pre & x & q & -> & B1 & B2 & K).
    exists (c :: pre), x, q. cbn [is_nil]. rewrite andb_false_r. split; [reflexivity|]. split; [cbn [blen]; rewrite total_cons, B1; reflexivity|]. split; [exact B2|exact K].
Qed.

(** ** From words to tokens *)
Lemma leaves_err m cs : forall first unk, match leaves m first cs unk with
  | Ok _ => True | Err e => e = EUnkToken /\ exists t, b_unk m = Some t /\ b_id m t = None | Panic => False end.
Proof.
  induction cs as [|c cs IH]; intros first unk; cbn [leaves]; [exact I|].
  assert (U : forall t, b_unk m = Some t -> forall e, unk_id m t = Err e -> e = EUnkToken /\ exists t, b_unk m = Some t /\ b_id m t = None).
  { intros t E e H. unfold unk_id in H. destruct (b_id m t) eqn:EI; [discriminate|]. injection H as <-. split; [reflexivity|]. exists t. auto. }
  assert (NP : forall t, unk_id m t <> Panic) by (intros t; unfold unk_id; destruct (b_id m t); discriminate).
  destruct (b_id m _); [pose proof (IH false None) as X; destruct (leaves m false cs None); exact X|].
  destruct (if b_fallback m then _ else None); [pose proof (IH false unk) as X; destruct (leaves m false cs unk); exact X|].
  destruct (b_unk m) as [ut|] eqn:EU; [|apply IH]. specialize (U _ eq_refl). specialize (NP ut). destruct unk as [[ui ul]|].
  - destruct (b_fuse m); [apply IH|]. destruct (unk_id m ut) as [i|e|] eqn:E; cbn [bind]; [|apply U; reflexivity|congruence].
    pose proof (IH false (Some (i, len_utf8 c))) as X; destruct (leaves m false cs _); exact X.
  - destruct (unk_id m ut) as [i|e|] eqn:E; cbn [bind]; [apply IH|apply U; reflexivity|congruence].
Qed.

Lemma merge_word_leaves pop m draws s :
  merge_word pop m draws s = (let! l := leaves m true s None in match merge_all pop (b_lookup m) draws (word_of l) with Ok out => Ok out | _ => Panic end).
Proof.
  unfold merge_word. pose proof (word_loop_leaves m s true [] None) as H. change (word_of []) with (@nil symbol) in H.
  destruct (word_loop m true s [] None) as [[w u]|e|].
  - destruct H as (l & -> & E). cbn [bind]. cbn [app] in E. rewrite E. reflexivity.
  - rewrite H. reflexivity.
  - destruct H.
Qed.

Lemma merge_word_spec pop m draws s : heap_ok pop ->
  match merge_word pop m draws s with
  | Ok w => exists l, leaves m true s None = Ok l /\ Forall (fun x => 0 < snd x) l /\ derives (b_lookup m) l (word_view w)
  | Err e => leaves m true s None = Err e
  | Panic => False
  end.
Proof.
  intros HP. rewrite merge_word_leaves. pose proof (leaves_err m s true None) as NE. destruct (leaves m true s None) as [l|e|] eqn:E; cbn [bind]; [|reflexivity|exact NE].
  assert (F : Forall (fun x => 0 < snd x) l) by (eapply leaves_pos; [exact E|discriminate]).
  destruct (merge_all_derives pop (b_lookup m) draws l HP F) as (out & -> & D). eauto.
Qed.

Lemma word_to_tokens_from m w : forall pos, (forall i, In i (get_chars w) -> exists t, b_token m i = Some t) ->
  exists ts, map_res (fun x : N * offsets_t => let! t := of_option (b_token m (fst x)) in Ok (mkTok (fst x) t (snd x)))
            (combine (get_chars w) (get_offsets pos w)) = @Ok bpe_error _ ts /\
    map t_id ts = get_chars w /\ map t_offsets ts = get_offsets pos w /\ Forall (fun t => b_token m (t_id t) = Some (t_value t)) ts.
Proof.
  induction w as [|x w IH]; intros pos H; cbn [get_chars get_offsets map combine map_res].
  - exists []. repeat split. constructor.
  - cbn [fst]. destruct (H (sy_c x)) as (t & E); [left; reflexivity|]. rewrite E. cbn [of_option bind].
    destruct (IH (pos + sy_len x)) as (ts & E1 & E2 & E3 & E4); [intros i HI; apply H; right; exact HI|].
    unfold get_chars in E1. rewrite E1. cbn [bind]. eexists. split; [reflexivity|]. cbn [map t_id t_offsets snd]. rewrite E2, E3. repeat split. constructor; [exact E|exact E4].
Qed.

Lemma offsets_ranges w : forall pos, Forall (fun x => 0 < snd x) (word_view w) -> ranges_from pos (get_offsets pos w) (pos + total (word_view w)).
Proof.
  induction w as [|x w IH]; intros pos F; cbn [get_offsets ranges_from word_view map] in *; [cbn; lia|].
  inversion F as [|? ? F1 F2]; subst. cbn in F1. split; [reflexivity|]. split; [lia|]. rewrite total_cons. cbn [snd]. rewrite Nat.add_assoc. apply IH. exact F2.
Qed.

Lemma offsets_nth w : forall pos k a b, nth_error (get_offsets pos w) k = Some (a, b) ->
  exists c n, nth_error (word_view w) k = Some (c, n) /\ a = pos + total (firstn k (word_view w)) /\ b = a + n.
Proof.
  induction w as [|x w IH]; intros pos [|k] a b H; try discriminate.
  - cbn in H. injection H as <- <-. exists (sy_c x), (sy_len x). cbn. split; [reflexivity|]. lia.
  - cbn [get_offsets nth_error] in H. destruct (IH _ _ _ _ H) as (c & n & E1 & E2 & E3). exists c, n. cbn [word_view map nth_error firstn]. split; [exact E1|].
    rewrite total_cons. cbn [snd]. unfold word_view in *. lia.
Qed.

Lemma spells_in vocab merges prefix m ids n : built_facts vocab merges prefix m -> spells (b_lookup m) ids n -> Forall (in_vocab vocab) ids -> in_vocab vocab n.
Proof.
  intros BF H. induction H as [i|xs ys a b r n _ _ _ _ HM]; intros F; [inversion F; assumption|]. eapply lookup_in; eauto.
Qed.

Lemma leaves_in vocab merges prefix m cs : built_facts vocab merges prefix m -> forall first unk l, leaves m first cs unk = Ok l ->
  (forall u n, unk = Some (u, n) -> in_vocab vocab u) -> Forall (fun x => in_vocab vocab (fst x)) l.
Proof.
  intros BF. assert (ID : forall t i, b_id m t = Some i -> in_vocab vocab i) by (intros t i E; exists t; eapply b_id_in; [exact BF|exact E]).
  assert (UI : forall t i, unk_id m t = Ok i -> in_vocab vocab i) by (intros t i E; unfold unk_id in E; destruct (b_id m t) eqn:EI; [injection E as <-; eauto|discriminate]).
  induction cs as [|c cs IH]; intros first unk l H P.
  - cbn in H. injection H as <-. destruct unk as [[u n]|]; cbn; repeat constructor. cbn. eapply P. reflexivity.
  - assert (FU : Forall (fun x => in_vocab vocab (fst x)) (flush unk)) by (destruct unk as [[u n]|]; cbn; repeat constructor; cbn; eapply P; reflexivity).
    cbn [leaves] in H. destruct (b_id m (decorate m first (is_nil cs) [c])) as [id|] eqn:EI.
    + apply bind_ok in H. destruct H as (l' & X & Y). injection Y as <-. apply Forall_app. split; [exact FU|]. constructor; [cbn; eauto|]. apply (IH _ _ _ X). discriminate.
    + destruct (b_fallback m).
      * destruct (map_opt _ _) as [ts|] eqn:ET.
        -- apply bind_ok in H. destruct H as (l' & X & Y). injection Y as <-. apply Forall_app. split; [|apply (IH _ _ _ X P)].
           apply Forall_forall. intros x Hx. apply in_map_iff in Hx. destruct Hx as (t & <- & Ht). destruct (map_opt_in _ _ _ ET _ Ht) as (b & _ & E). cbn. eauto.
        -- destruct (b_unk m) as [ut|]; [|apply (IH _ _ _ H P)]. destruct unk as [[ui ul]|].
           ++ destruct (b_fuse m).
              ** apply (IH _ _ _ H). intros u n E. injection E as <- _. eapply P. reflexivity.
              ** apply bind_ok in H. destruct H as (i & U & H). apply bind_ok in H. destruct H as (l' & X & Y). injection Y as <-.
                 constructor; [cbn; eapply P; reflexivity|]. apply (IH _ _ _ X). intros u n E. injection E as <- _. eauto.
           ++ assert (H' : exists i, unk_id m ut = Ok i /\ leaves m false cs (Some (i, len_utf8 c)) = Ok l) by (destruct (b_fuse m); apply bind_ok in H; destruct H as (i & ? & H); eauto).
              destruct H' as (i & U & H'). apply (IH _ _ _ H'). intros u n E. injection E as <- _. eauto.
      * destruct (b_unk m) as [ut|]; [|apply (IH _ _ _ H P)]. destruct unk as [[ui ul]|].
        -- destruct (b_fuse m).
           ++ apply (IH _ _ _ H). intros u n E. injection E as <- _. eapply P. reflexivity.
           ++ apply bind_ok in H. destruct H as (i & U & H). apply bind_ok in H. destruct H as (l' & X & Y). injection Y as <-.
              constructor; [cbn; eapply P; reflexivity|]. apply (IH _ _ _ X). intros u n E. injection E as <- _. eauto.
        -- assert (H' : exists i, unk_id m ut = Ok i /\ leaves m false cs (Some (i, len_utf8 c)) = Ok l) by (destruct (b_fuse m); apply bind_ok in H; destruct H as (i & ? & H); eauto).
           destruct H' as (i & U & H'). apply (IH _ _ _ H'). intros u n E. injection E as <- _. eauto.
Qed.

Lemma groups_in vocab merges prefix m l out : built_facts vocab merges prefix m -> groups (b_lookup m) l out ->
  Forall (fun x => in_vocab vocab (fst x)) l -> Forall (fun x => in_vocab vocab (fst x)) out.
Proof.
  intros BF (gs & <- & F2) F. induction F2 as [|g t gs out [_ S] _ IH]; [constructor|]. cbn [concat] in F. apply Forall_app in F. destruct F as [Fg Fr].
  constructor; [|auto]. eapply spells_in; [exact BF|exact S|]. apply Forall_map. exact Fg.
Qed.

Lemma groups_pos (merges : merge_map) l out : groups merges l out -> Forall (fun x => 0 < snd x) l -> Forall (fun x => 0 < snd x) out.
Proof.
  intros (gs & <- & F2) F. induction F2 as [|g t gs out [T S] _ IH]; [constructor|]. cbn [concat] in F. apply Forall_app in F. destruct F as [Fg Fr].
  constructor; [|auto]. rewrite <- T. apply spells_nonempty in S. destruct g as [|x g]; [cbn in S; congruence|]. inversion Fg; subst. rewrite total_cons. lia.
Qed.

Lemma groups_total (merges : merge_map) l out : groups merges l out -> total out = total l.
Proof.
  intros (gs & <- & F2). induction F2 as [|g t gs out [T S] _ IH]; [reflexivity|]. cbn [concat]. rewrite total_app, total_cons, IH, T. reflexivity.
Qed.

(** Everything about a successful merge of a word. *)
Lemma word_tokens_spec vocab merges prefix m pop draws s : built_facts vocab merges prefix m -> heap_ok pop ->
  match (let! w := merge_word pop m draws s in word_to_tokens m w) with
  | Ok ts => exists l w, leaves m true s None = Ok l /\ Forall (fun x => 0 < snd x) l /\ groups (b_lookup m) l (word_view w) /\ merge_word pop m draws s = Ok w /\
               map t_id ts = get_chars w /\ map t_offsets ts = get_offsets 0 w /\ Forall (fun t => b_token m (t_id t) = Some (t_value t)) ts
  | Err e => e = EUnkToken /\ exists t, b_unk m = Some t /\ b_id m t = None
  | Panic => False
  end.
Proof.
  intros BF HP. pose proof (merge_word_spec pop m draws s HP) as H. destruct (merge_word pop m draws s) as [w|e|] eqn:EM; cbn [bind]; [| |exact H].
  - destruct H as (l & L & P & D). apply derives_groups in D.
    assert (IV : Forall (fun x => in_vocab vocab (fst x)) (word_view w)) by (eapply groups_in; [exact BF|exact D|]; eapply leaves_in; [exact BF|exact L|discriminate]).
    unfold word_to_tokens. destruct (word_to_tokens_from m w 0) as (ts & -> & E1 & E2 & E3).
    + intros i Hi. eapply b_token_has; [exact BF|]. unfold get_chars in Hi. apply in_map_iff in Hi. destruct Hi as (x & <- & Hx).
      rewrite Forall_forall in IV. apply (IV (sy_c x, sy_len x)). unfold word_view. apply in_map_iff. exists x. auto.
    + exists l, w. auto 10.
  - pose proof (leaves_err m s true None) as X. rewrite H in X. exact X.
Qed.

Lemma total_prefix (a b c d : list (N * nat)) : a ++ b = c ++ d -> total a = total c -> Forall (fun x => 0 < snd x) (a ++ b) -> a = c /\ b = d.
Proof.
  revert c. induction a as [|x a IH]; intros [|y c] E T F; cbn [app] in *.
  - auto.
  - subst b. inversion F; subst. rewrite total_cons in T. cbn in T. lia.
  - inversion F; subst. rewrite total_cons in T. cbn in T. lia.
  - injection E as <- E. inversion F; subst. rewrite !total_cons in T. destruct (IH c E) as [-> ->]; [lia|assumption|]. auto.
Qed.

(** The group of a token. *)
Lemma group_of (merges : merge_map) l out k c n : groups merges l out -> nth_error out k = Some (c, n) ->
  exists P g R, l = P ++ g ++ R /\ total P = total (firstn k out) /\ total g = n /\ g <> [] /\ spells merges (map fst g) c.
Proof.
  intros (gs & <- & F2) H. revert k H. induction F2 as [|g t gs out [T S] F IH]; intros [|k] H; try discriminate.
  - cbn in H. injection H as ->. cbn in T, S. exists [], g, (concat gs). cbn. repeat split; auto. intros ->. apply spells_nonempty in S. cbn in S. congruence.
  - cbn [nth_error] in H. destruct (IH _ H) as (P & g' & R & E & T1 & T2 & NE & S'). exists (g ++ P), g', R. cbn [concat firstn]. rewrite E, total_app, total_cons, T1, T.
    rewrite <- app_assoc. auto.
Qed.

Lemma token_nth (ts : list token) w k t : map t_id ts = get_chars w -> map t_offsets ts = get_offsets 0 w -> nth_error ts k = Some t ->
  exists n, nth_error (word_view w) k = Some (t_id t, n) /\ t_offsets t = (total (firstn k (word_view w)), total (firstn k (word_view w)) + n).
Proof.
  intros E1 E2 H. assert (O : nth_error (get_offsets 0 w) k = Some (t_offsets t)) by (rewrite <- E2, nth_error_map, H; reflexivity).
  destruct (t_offsets t) as [a b]. destruct (offsets_nth _ _ _ _ _ O) as (c & n & X & Y & Z). exists n.
  assert (C : nth_error (get_chars w) k = Some (t_id t)) by (rewrite <- E1, nth_error_map, H; reflexivity).
  assert (C' : nth_error (get_chars w) k = Some c).
  { unfold get_chars. unfold word_view in X. rewrite nth_error_map in X |- *. destruct (nth_error w k) as [x|]; [|discriminate]. cbn in *. congruence. }
  rewrite C in C'. injection C' as <-. split; [exact X|]. f_equal; lia.
Qed.

(** The value of the token standing for a run of known characters. *)
Lemma token_text vocab merges prefix m pop draws s ts pre x post t :
  built_facts vocab merges prefix m -> heap_ok pop -> NoDup (map snd vocab) -> covered m s -> s = pre ++ x ++ post -> x <> [] -> all_known m pre x post ->
  (let! w := merge_word pop m draws s in word_to_tokens m w) = Ok ts -> In t ts -> t_offsets t = (blen pre, blen pre + blen x) ->
  t_value t = in_place m pre x post.
Proof.
  intros BF HP ND CV -> NX AK H HI HO. pose proof (word_tokens_spec vocab merges prefix m pop draws (pre ++ x ++ post) BF HP) as W. rewrite H in W.
  destruct W as (l & w & L & P & G & _ & E1 & E2 & E3). apply In_nth_error in HI. destruct HI as (k & HI).
  destruct (token_nth _ _ _ _ E1 E2 HI) as (n & NV & OF). rewrite HO in OF. injection OF as O1 O2.
  destruct (group_of _ _ _ _ _ _ G NV) as (A' & g & R & EL & T1 & T2 & NE & S).
  destruct (leaves_around _ _ _ _ _ CV NX AK L) as (A & K & B & EL' & TA & TK & KR).
  rewrite EL' in EL, P. destruct (total_prefix _ _ _ _ EL) as [<- EK]; [lia|exact P|].
  apply Forall_app in P. destruct P as [_ P]. destruct (total_prefix _ _ _ _ EK) as [<- _]; [lia|exact P|].
  pose proof (spells_text _ _ _ _ BF ND _ _ S _ _ _ _ KR eq_refl) as X. rewrite Forall_forall in E3. rewrite (E3 t (nth_error_In _ _ HI)) in X. injection X as ->. reflexivity.
Qed.

Lemma known_word_tokens vocab merges prefix m pop draws s ts t :
  built_facts vocab merges prefix m -> heap_ok pop -> NoDup (map snd vocab) ->
  (forall p c q, s = p ++ c :: q -> known_char m (is_nil p) (is_nil q) c) ->
  (let! w := merge_word pop m draws s in word_to_tokens m w) = Ok ts -> In t ts ->
  exists pre x post, s = pre ++ x ++ post /\ t_offsets t = (blen pre, blen pre + blen x) /\ t_value t = in_place m pre x post.
Proof.
  intros BF HP ND AK H HI. pose proof (word_tokens_spec vocab merges prefix m pop draws s BF HP) as W. rewrite H in W.
  destruct W as (l & w & L & P & G & _ & E1 & E2 & E3). apply In_nth_error in HI. destruct HI as (k & HI).
  destruct (token_nth _ _ _ _ E1 E2 HI) as (n & NV & OF).
  destruct (group_of _ _ _ _ _ _ G NV) as (A & g & R & EL & T1 & T2 & NE & S).
  destruct (leaves_known m s true AK) as (l' & L' & KR). rewrite L in L'. injection L' as <-. rewrite EL in KR.
  destruct (known_run_mid _ _ _ _ _ _ _ KR NE) as (pre & x & post & -> & B1 & B2 & K). cbn [andb] in K. rewrite app_nil_r in K.
  exists pre, x, post. split; [reflexivity|]. split; [rewrite OF; f_equal; lia|].
  pose proof (spells_text _ _ _ _ BF ND _ _ S _ _ _ _ K eq_refl) as X. rewrite Forall_forall in E3. rewrite (E3 t (nth_error_In _ _ HI)) in X. injection X as ->. reflexivity.
Qed.

(** ** Panics of the builder *)
Lemma max_blen_attained (vocab : list (str * N)) : forall acc, fold_left (fun acc ti => Nat.max acc (blen (fst ti))) vocab acc = acc \/
  exists t i, In (t, i) vocab /\ fold_left (fun acc ti => Nat.max acc (blen (fst ti))) vocab acc = blen t.
Proof.
  induction vocab as [|[u j] vocab IH]; intros acc; cbn [fold_left fst]; [auto|].
  destruct (IH (Nat.max acc (blen u))) as [E|(t & i & HI & E)]; [|right; exists t, i; cbn; auto].
  rewrite E. destruct (Nat.max_spec acc (blen u)) as [[_ ->]|[_ ->]]; [right; exists u, j; cbn; auto|auto].
Qed.

Lemma max_blen_lt vocab x : vocab <> [] -> (max_blen vocab < x <-> forall t i, In (t, i) vocab -> blen t < x).
Proof.
  intros NE. split.
  - intros H t i HI. pose proof (max_blen_in _ _ _ HI). lia.
  - intros H. unfold max_blen. destruct (max_blen_attained vocab 0) as [E|(t & i & HI & E)].
    + rewrite E. destruct vocab as [|[t i] v]; [congruence|]. pose proof (H t i (or_introl eq_refl)). lia.
    + rewrite E. eauto.
Qed.

Definition merge_panics (vocab : list (str * N)) (pl : nat) (a b : str) : Prop :=
  In a (map fst vocab) /\ In b (map fst vocab) /\ (blen b < pl \/ forall t i, In (t, i) vocab -> blen t < blen a + (blen b - pl)).

Lemma build_merge_panic vocab pl i a b : build_merge vocab pl (max_blen vocab) i (a, b) = Panic <-> merge_panics vocab pl a b.
Proof.
  unfold build_merge, merge_panics. rewrite !key_aget. destruct (aget str_eqb a vocab) as [ia|] eqn:EA; [|split; [discriminate|intros ((x & E) & _); discriminate]].
  destruct (aget str_eqb b vocab) as [ib|]; [|split; [discriminate|intros (_ & (x & E) & _); discriminate]].
  assert (NE : vocab <> []) by (intros ->; discriminate). rewrite <- (max_blen_lt vocab _ NE).
  destruct (blen b <? pl) eqn:E1; [apply Nat.ltb_lt in E1; split; [intros _; split; [eauto|]; split; [eauto|auto]|reflexivity]|]. apply Nat.ltb_ge in E1.
  destruct (max_blen vocab <? blen a + (blen b - pl)) eqn:E2; [apply Nat.ltb_lt in E2; split; [intros _; split; [eauto|]; split; [eauto|auto]|reflexivity]|]. apply Nat.ltb_ge in E2.
  split; [|intros (_ & _ & [H|H]); lia]. destruct (str_get b pl (blen b)) as [rest|]; [destruct (aget str_eqb (a ++ rest) vocab)|]; discriminate.
Qed.

Lemma build_merges_panic vocab prefix merges : forall i acc, build_merges vocab (opt_blen prefix) (max_blen vocab) i merges acc = Panic <->
  exists m1 a b m2, merges = m1 ++ (a, b) :: m2 /\ acceptable vocab prefix m1 /\ merge_panics vocab (opt_blen prefix) a b.
Proof.
  induction merges as [|[a b] merges IH]; intros i acc.
  - split; [discriminate|]. intros ([|] & a & b & m2 & E & _); discriminate.
  - cbn [build_merges]. destruct (build_merge vocab (opt_blen prefix) (max_blen vocab) i (a, b)) as [kv|e|] eqn:EM; cbn [bind].
    + rewrite IH. destruct (build_merge_ok _ _ _ _ _ _ _ EM) as (ia & ib & n & p & rest & EK & HA & HB & EB & EP & HN). split.
      * intros (m1 & a' & b' & m2 & -> & A & P). exists ((a, b) :: m1), a', b', m2. split; [reflexivity|]. split; [|exact P].
        intros x y [E|HI]; [|apply A; exact HI]. injection E as <- <-. split; [apply key_aget; eauto|]. split; [apply key_aget; eauto|].
        exists (a ++ rest). split; [exists p, rest; auto|apply key_aget; eauto].
      * intros ([|ab m1] & a' & b' & m2 & E & A & P).
        -- cbn in E. injection E as <- <- _. apply (build_merge_panic _ _ i) in P. congruence.
        -- cbn in E. injection E as _ E. exists m1, a', b', m2. split; [exact E|]. split; [|exact P]. intros x y HI. apply A. right. exact HI.
    + split; [discriminate|]. intros ([|ab m1] & a' & b' & m2 & E & A & P).
      * cbn in E. injection E as <- <- _. apply (build_merge_panic _ _ i) in P. congruence.
      * cbn in E. injection E as <- _. destruct (A a b (or_introl eq_refl)) as (HA & HB & t & (p & rest & EB & EP & ET) & HT).
        apply key_aget in HA, HB, HT. destruct HA as (ia & HA), HB as (ib & HB), HT as (n & HT). subst t.
        rewrite (build_merge_accept _ _ i _ _ _ _ _ _ _ HA HB EB EP HT) in EM. discriminate.
    + split; [|reflexivity]. intros _. exists [], a, b, merges. split; [reflexivity|]. split; [intros x y []|]. apply (build_merge_panic _ _ i). exact EM.
Qed.
