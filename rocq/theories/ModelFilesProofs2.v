(** Proofs about saving and loading BPE models. *)
From Coq Require Import String.
From Verif Require Import Base StrBytes ListFacts Utf8 AMap EncodingModel BpeWordModel BpeWordSpec BpeWordProofs BpeModel BpeSpec BpeProofs BpeProps WordPieceModel UnigramModel ModelFilesModel ModelFilesSpec ModelFilesProofs.

(** ** Places *)
Lemma filter_perm_length {A} (f : A -> bool) l l' : Permutation l l' -> length (filter f l) = length (filter f l').
Proof. induction 1 as [|x l l' P IH|x y l|]; cbn [filter]; [reflexivity|destruct (f x); cbn; lia|destruct (f x), (f y); reflexivity|lia]. Qed.

Lemma filter_none {A} (f : A -> bool) l : (forall x, In x l -> f x = false) -> filter f l = [].
Proof. induction l as [|x l IH]; intros H; [reflexivity|]. cbn. rewrite (H x) by (left; reflexivity). apply IH. intros y I. apply H. right. exact I. Qed.

Lemma sorted_place (T : list ((N * N) * (N * N))) : StronglySorted (fun a b => (fst (snd a) <= fst (snd b))%N) T -> NoDup (map (fun e => fst (snd e)) T) ->
  forall j e, nth_error T j = Some e -> length (filter (fun x => N.ltb (fst (snd x)) (fst (snd e))) T) = j.
Proof.
  induction 1 as [|x T SS IH F]; intros D j e H; [destruct j; discriminate|]. cbn [map] in D. inversion D as [|? ? NI D']; subst. rewrite Forall_forall in F.
  destruct j as [|j]; cbn [nth_error] in H; cbn [filter].
  - injection H as ->. rewrite N.ltb_irrefl. rewrite filter_none; [reflexivity|]. intros y I. apply F in I. lia.
  - assert (I : In e T) by (apply nth_error_In in H; exact H).
    assert (L : N.ltb (fst (snd x)) (fst (snd e)) = true).
    { pose proof (F _ I) as L. assert (NE : fst (snd x) <> fst (snd e)) by (intros EQ; apply NI; rewrite EQ; apply (in_map (fun e => fst (snd e))); exact I). lia. }
    rewrite L. cbn [length]. f_equal. apply IH; assumption.
Qed.

(** ** The table of a model that was built *)
Section saved.
  Context (vocab : list (str * N)) (merges : list (str * str)) (prefix : option str) (m : bpe).
  Context (B : built vocab merges prefix m) (WR : writable vocab).

  Lemma built_facts_of : built_facts vocab merges prefix m.
  Proof. destruct B as [_ (d & unk & sf & fu & fb & ig & BB)]. eapply build_facts. exact BB. Qed.

  Lemma build_merges_nodup v pl ml l : forall i acc mm, build_merges v pl ml i l acc = Ok mm -> NoDup (map fst acc) -> NoDup (map fst mm).
  Proof using.
    induction l as [|ab l IH]; intros i acc mm H D; cbn [build_merges] in H; [injection H as <-; exact D|].
    apply bind_ok in H. destruct H as (kv & _ & H). apply (IH _ _ _ H). apply (aset_nodup _ pair_eqb_eq). exact D.
  Qed.
  Lemma table_keys : NoDup (map fst (b_merges m)).
  Proof using B.
    destruct B as [_ (d & unk & sf & fu & fb & ig & BB)]. unfold bpe_build in BB.
    destruct d; try discriminate; (apply bind_ok in BB; destruct BB as (mm & X & Y); injection Y as <-; eapply build_merges_nodup; [exact X|constructor]).
  Qed.

  Lemma in_table e : In e (b_merges m) <-> b_lookup m (fst (fst e)) (snd (fst e)) = Some (snd e).
  Proof using B.
    destruct e as [[a b] rn]. cbn [fst snd]. unfold b_lookup. split; [apply (In_aget _ pair_eqb_eq); apply table_keys|apply (aget_In _ pair_eqb_eq)].
  Qed.

  Lemma writable_id t u i : In (t, i) vocab -> In (u, i) vocab -> t = u.
  Proof using WR. destruct WR as (_ & D2 & _). apply snd_inj. exact D2. Qed.
  Lemma writable_tok t i k : In (t, i) vocab -> In (t, k) vocab -> i = k.
  Proof using WR. destruct WR as (D1 & _). intros H1 H2. apply (in_aget _ _ _ D1) in H1, H2. congruence. Qed.

  Lemma merged_text_unique p a b t u : merged_text p a b t -> merged_text p a b u -> t = u.
  Proof using.
    intros (p1 & r1 & E1 & L1 & ->) (p2 & r2 & E2 & L2 & ->). rewrite E1 in E2. assert (EL : blen p1 = blen p2) by lia. destruct (blen_split_eq _ _ _ _ E2 EL) as [_ <-]. reflexivity.
  Qed.

  (** An entry of the table is a merge of the list. *)
  Lemma entry_merge e : In e (b_merges m) -> exists j a b t, nth_error merges j = Some (a, b) /\ fst (snd e) = N.of_nat j /\ merged_text prefix a b t /\
    In (a, fst (fst e)) vocab /\ In (b, snd (fst e)) vocab /\ In (t, snd (snd e)) vocab.
  Proof using B.
    intros H. apply in_table in H. destruct e as [[ia ib] [r n]]. cbn [fst snd] in *. apply (C36_table _ _ _ _ _ _ _ _ B) in H.
    destruct H as (j & -> & (a & b & t & E & MT & I1 & I2 & I3) & _). exists j, a, b, t. auto 10.
  Qed.

  Lemma table_ranks : NoDup (map (fun e => fst (snd e)) (b_merges m)).
  Proof using B WR.
    pose proof table_keys as D. assert (INJ : forall e e', In e (b_merges m) -> In e' (b_merges m) -> fst (snd e) = fst (snd e') -> fst e = fst e').
    { intros e e' H H' E. destruct (entry_merge _ H) as (j & a & b & t & N1 & R1 & _ & A1 & B1 & _). destruct (entry_merge _ H') as (j' & a' & b' & t' & N2 & R2 & _ & A2 & B2 & _).
      assert (j = j') by lia. subst j'. rewrite N1 in N2. injection N2 as <- <-. destruct e as [[x y] ?], e' as [[x' y'] ?]. cbn in *. f_equal; eapply writable_tok; eassumption. }
    revert D INJ. generalize (b_merges m). induction l as [|e l IH]; intros D INJ; [constructor|]. cbn [map] in *. inversion D as [|? ? NI D']; subst. constructor.
    - intros H. apply in_map_iff in H. destruct H as (e' & E & H). apply NI. rewrite (INJ e e'); [apply in_map; exact H|left; reflexivity|right; exact H|auto].
    - apply IH; [exact D'|]. intros x y X Y. apply INJ; right; assumption.
  Qed.

  Context (by_rank : list ((N * N) * (N * N)) -> list ((N * N) * (N * N))) (RS : rank_sort by_rank).

  Definition texts_of (e : (N * N) * (N * N)) (ab : str * str) : Prop := In (fst ab, fst (fst e)) vocab /\ In (snd ab, snd (fst e)) vocab.

  Lemma merge_texts_ok : exists ml, merge_texts by_rank m = Ok ml /\ Forall2 texts_of (by_rank (b_merges m)) ml.
  Proof using B WR RS.
    unfold merge_texts. destruct (RS (b_merges m)) as [P _].
    assert (A : forall e, In e (by_rank (b_merges m)) -> In e (b_merges m)) by (intros e; apply Permutation_in; apply Permutation_sym; exact P).
    revert A. generalize (by_rank (b_merges m)). induction l as [|e l IH]; intros A; [exists []; split; [reflexivity|constructor]|].
    destruct IH as (ml & E & F); [intros x I; apply A; right; exact I|].
    destruct (entry_merge e (A e (or_introl eq_refl))) as (j & a & b & t & _ & _ & _ & I1 & I2 & _).
    exists ((a, b) :: ml). split; [|constructor; [split; assumption|exact F]]. cbn [map_res]. destruct WR as (_ & D2 & _).
    apply (b_token_inj _ _ _ _ built_facts_of _ _ D2) in I1, I2. rewrite I1, I2. cbn [of_option bind]. rewrite E. reflexivity.
  Qed.

  Lemma Forall2_nth {X Y} (R : X -> Y -> Prop) l l' : Forall2 R l l' -> forall j y, nth_error l' j = Some y -> exists x, nth_error l j = Some x /\ R x y.
  Proof using. induction 1 as [|x y l l' XY F IH]; intros j z H; [destruct j; discriminate|]. destruct j as [|j]; cbn in *; [injection H as <-; eauto|auto]. Qed.
  Lemma Forall2_nth' {X Y} (R : X -> Y -> Prop) l l' : Forall2 R l l' -> forall j x, nth_error l j = Some x -> exists y, nth_error l' j = Some y /\ R x y.
  Proof using. induction 1 as [|x y l l' XY F IH]; intros j z H; [destruct j; discriminate|]. destruct j as [|j]; cbn in *; [injection H as <-; eauto|auto]. Qed.

  Context (ml : list (str * str)) (F2 : Forall2 texts_of (by_rank (b_merges m)) ml).

  Lemma sorted_in e : In e (by_rank (b_merges m)) <-> In e (b_merges m).
  Proof using RS. destruct (RS (b_merges m)) as [P _]. split; apply Permutation_in; [apply Permutation_sym|]; exact P. Qed.

  Lemma saved_merge j a b : nth_error ml j = Some (a, b) -> exists e, nth_error (by_rank (b_merges m)) j = Some e /\ In e (b_merges m) /\ In (a, b) merges /\
    In (a, fst (fst e)) vocab /\ In (b, snd (fst e)) vocab.
  Proof using B WR RS F2.
    intros H. destruct (Forall2_nth _ _ _ F2 _ _ H) as (e & E & (I1 & I2)). cbn [fst snd] in *. exists e. assert (IE : In e (b_merges m)) by (apply sorted_in; eapply nth_error_In; exact E).
    split; [exact E|]. split; [exact IE|]. split; [|auto]. destruct (entry_merge e IE) as (k & a' & b' & t & N1 & _ & _ & A1 & B1 & _).
    rewrite (writable_id _ _ _ I1 A1), (writable_id _ _ _ I2 B1). eapply nth_error_In. exact N1.
  Qed.

  Lemma saved_acceptable v' : Permutation vocab v' -> acceptable v' prefix ml.
  Proof using B WR RS F2.
    intros P a b H. apply In_nth_error in H. destruct H as (j & H). destruct (saved_merge _ _ _ H) as (_ & _ & _ & H' & _).
    assert (AC : acceptable vocab prefix merges) by (destruct B as [_ (d & unk & sf & fu & fb & ig & BB)]; eapply build_accepts; eauto).
    destruct (AC a b H') as (X & Y & t & MT & Z).
    assert (P' : forall x, In x (map fst vocab) -> In x (map fst v')) by (intros x; apply Permutation_in; apply Permutation_map; exact P). split; [auto|]. split; [auto|]. exists t. auto.
  Qed.

  Lemma sorted_keys : NoDup (map fst (by_rank (b_merges m))).
  Proof using B RS. destruct (RS (b_merges m)) as [P _]. eapply Permutation_NoDup; [apply Permutation_map; exact P|apply table_keys]. Qed.

  (** The merges written, by their ids. *)
  Lemma saved_is_merge j ia ib n : is_merge vocab prefix ml j ia ib n <-> exists r, nth_error (by_rank (b_merges m)) j = Some ((ia, ib), (r, n)).
  Proof using B WR RS F2.
    split.
    - intros (a & b & t & N1 & MT & A1 & B1 & T1). destruct (saved_merge _ _ _ N1) as (e & E & IE & _ & A2 & B2).
      assert (EK : fst e = (ia, ib)) by (destruct e as [[x y] ?]; cbn in *; f_equal; eapply writable_tok; eassumption).
      destruct (entry_merge e IE) as (k & a' & b' & t' & _ & _ & MT' & A3 & B3 & T3).
      rewrite (writable_id _ _ _ A3 A2), (writable_id _ _ _ B3 B2) in MT'. rewrite (merged_text_unique _ _ _ _ _ MT' MT) in T3.
      exists (fst (snd e)). rewrite E. destruct e as [? [r n']]. cbn in *. rewrite EK. do 3 f_equal. eapply writable_tok; eassumption.
    - intros (r & H). destruct (Forall2_nth' _ _ _ F2 _ _ H) as ([a b] & N1 & (I1 & I2)). cbn [fst snd] in *.
      assert (IE : In ((ia, ib), (r, n)) (b_merges m)) by (apply sorted_in; eapply nth_error_In; exact H).
      destruct (entry_merge _ IE) as (k & a' & b' & t & _ & _ & MT & A3 & B3 & T3). cbn [fst snd] in *. exists a, b, t.
      rewrite (writable_id _ _ _ A3 I1), (writable_id _ _ _ B3 I2) in MT. auto.
  Qed.

  Lemma is_merge_perm v v' p l j ia ib n : Permutation v v' -> is_merge v p l j ia ib n <-> is_merge v' p l j ia ib n.
  Proof using.
    intros P. pose proof (Permutation_sym P) as P'. unfold is_merge.
    split; intros (a & b & t & N1 & MT & A1 & B1 & T1); exists a, b, t; repeat split; auto; try (eapply Permutation_in; eassumption).
  Qed.

  (** The table after loading. *)
  Lemma loaded_table v' m' : Permutation vocab v' -> built v' ml prefix m' ->
    forall ia ib r' n, b_lookup m' ia ib = Some (r', n) <-> exists r, b_lookup m ia ib = Some (r, n) /\ r' = place m r.
  Proof using B WR RS F2.
    intros P B' ia ib r' n. rewrite (C36_table _ _ _ _ _ _ _ _ B').
    destruct (RS (b_merges m)) as [PT SS]. assert (DR : NoDup (map (fun e => fst (snd e)) (by_rank (b_merges m)))) by (eapply Permutation_NoDup; [apply Permutation_map; exact PT|apply table_ranks]).
    assert (PL : forall j e, nth_error (by_rank (b_merges m)) j = Some e -> place m (fst (snd e)) = N.of_nat j).
    { intros j e H. unfold place. rewrite (filter_perm_length _ _ _ PT). f_equal. apply sorted_place; assumption. }
    split.
    - intros (j & -> & IM & _). rewrite <- (is_merge_perm _ _ _ _ _ _ _ _ P) in IM. apply saved_is_merge in IM. destruct IM as (r & H). exists r. split; [|symmetry; apply (PL _ _ H)].
      apply nth_error_In in H. apply sorted_in in H. apply in_table in H. exact H.
    - intros (r & H & ->). assert (IE : In ((ia, ib), (r, n)) (by_rank (b_merges m))) by (apply sorted_in; apply in_table; exact H).
      apply In_nth_error in IE. destruct IE as (j & E). exists j. split; [apply (PL _ _ E)|]. split; [apply (is_merge_perm _ _ _ _ _ _ _ _ P); apply saved_is_merge; eauto|].
      intros j' n' LT IM. rewrite <- (is_merge_perm _ _ _ _ _ _ _ _ P) in IM. apply saved_is_merge in IM. destruct IM as (r2 & E2).
      pose proof sorted_keys as DK. assert (j' = j); [|lia]. apply (proj1 (NoDup_nth_error (map fst (by_rank (b_merges m)))) DK).
      + rewrite map_length. apply nth_error_Some. congruence.
      + rewrite (map_nth_error fst _ _ E2), (map_nth_error fst _ _ E). reflexivity.
  Qed.
End saved.
