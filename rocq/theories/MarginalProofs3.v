(** The sums over a lattice. *)
From Coq Require Import Permutation Ring.
From Verif Require Import Base StrBytes ListFacts AMap Utf8 EncodingModel BpeWordModel BpeWordProofs BpeModel TrieModel UnigramModel UnigramSpec UnigramProofs UnigramProofs2 NBestSpec MarginalModel MarginalSpec MarginalProofs MarginalProofs2.

Lemma seq_split n : forall a l1 x l2, seq a n = l1 ++ x :: l2 -> (forall y, In y l1 <-> a <= y < x) /\ (forall y, In y l2 <-> x < y < a + n) /\ a <= x < a + n.
Proof.
  induction n as [|n IH]; intros a l1 x l2 E; [destruct l1; discriminate|]. cbn [seq] in E. destruct l1 as [|z l1]; cbn in E; injection E as <- E.
  - subst l2. split; [|split; [|lia]]; intros y; [cbn; lia|]. rewrite in_seq. lia.
  - apply IH in E. destruct E as (H1 & H2 & H3). split; [|split; [|lia]]; intros y; [cbn [In]; rewrite H1; lia|rewrite H2; lia].
Qed.

Section lattice.
  Context {W K : Type} (A : arith W) (M : marith W K) (zero one : K) (inv : K -> K) (HX : exact_marith A M zero one inv).
  Add Ring Kring3 : (xm_ring _ _ _ _ _ HX).
  Notation ksum := (ksum M zero).
  Infix "+K" := (ma_plus M) (at level 50, left associativity).
  Infix "*K" := (ma_mul M) (at level 40, left associativity).
  Context (m : unigram W) (Hwf : wf m) (s : str).
  Context (la : lattice W) (L : list (str * (str * N * W))) (HH : holds A m s la L) (AL : all_to A m s (blen s) L) (ND : NoDup L).
  Context (HP : forall p c q, s = p ++ c :: q -> exists it, In (p, it) L /\ fst (fst it) = [c]) (HU : unk_apart m s).
  Notation mass := (mass A M zero one m).
  Notation nodes := (la_nodes la).

  Lemma node_at i n : nth_error nodes i = Some n -> (i = 0 /\ ln_pos n = 0 /\ ln_score n = a_zero A /\ ln_id n = u_bos m) \/ (i = 1 /\ ln_pos n = blen s /\ ln_score n = a_zero A /\ ln_id n = u_eos m) \/
    exists j p x id w, i = S (S j) /\ nth_error L j = Some (p, (x, id, w)) /\ n = lnode_new A id (blen p) (blen x) w.
  Proof.
    rewrite (ho_nodes _ _ _ _ _ HH). destruct i as [|[|j]]; cbn [nth_error]; intros E; [injection E as <-; left; auto|injection E as <-; right; left; auto|].
    right. right. rewrite nth_error_map in E. destruct (nth_error L j) as [[p [[x id] w]]|] eqn:EL; [|discriminate]. injection E as <-. exists j, p, x, id, w. auto.
  Qed.
  Lemma at_node j p x id w : nth_error L j = Some (p, (x, id, w)) -> nth_error nodes (S (S j)) = Some (lnode_new A id (blen p) (blen x) w).
  Proof. intros E. rewrite (ho_nodes _ _ _ _ _ HH). cbn [nth_error]. rewrite nth_error_map, E. reflexivity. Qed.
  Lemma placed j p it : nth_error L j = Some (p, it) -> blen p < blen s /\ item_ok A m it /\ (exists r, s = p ++ fst (fst it) ++ r) /\ fst (fst it) <> [].
  Proof. intros E. apply nth_error_In in E. apply AL in E. destruct E as (E1 & E2 & E3). repeat split; auto. eapply item_text; exact E2. Qed.
  Lemma nodes_length : length nodes = S (S (length L)).
  Proof. rewrite (ho_nodes _ _ _ _ _ HH). cbn. rewrite map_length. reflexivity. Qed.

  Lemma item_vocab x id w y w' : last_entry (u_vocab m) x id w -> last_entry (u_vocab m) y id w' -> x = y /\ w = w'.
  Proof. intros [E1 _] [E2 _]. rewrite E1 in E2. injection E2 as -> ->. auto. Qed.

  Lemma same_end p1 p2 x1 x2 id w1 w2 p q : item_ok A m (x1, id, w1) -> item_ok A m (x2, id, w2) -> p1 ++ x1 = p -> p2 ++ x2 = p -> s = p ++ q -> (p1, (x1, id, w1)) = (p2, (x2, id, w2)).
  Proof.
    intros I1 I2 E1 E2 Es.
    assert (MIX : forall pa pb x c w, last_entry (u_vocab m) x id w -> x <> [] -> ~ In [c] (map fst (u_vocab m)) -> u_unk m = Some id -> pa ++ x = p -> pb ++ [c] = p -> False).
    { intros pa pb x c w LE NE NI U Ea Eb. apply NI. destruct (exists_last NE) as (r & d & ->). assert (EQ : (pa ++ r) ++ [d] = pb ++ [c]) by (rewrite <- app_assoc; congruence).
      apply app_inj_tail in EQ. destruct EQ as [_ ->]. eapply (proj2 (HU id (r ++ [c]) w pa q U (proj1 LE) ltac:(rewrite Es, <- Ea, <- app_assoc; reflexivity))). reflexivity. }
    destruct I1 as [[N1 LE1]|(c1 & -> & NI1 & U1 & ->)], I2 as [[N2 LE2]|(c2 & -> & NI2 & U2 & ->)].
    - destruct (item_vocab _ _ _ _ _ LE1 LE2) as [-> ->]. rewrite <- E2 in E1. apply app_inv_tail in E1. congruence.
    - exfalso. eapply MIX; eauto.
    - exfalso. eapply MIX; eauto.
    - rewrite <- E2 in E1. apply app_inj_tail in E1. destruct E1 as [-> ->]. reflexivity.
  Qed.
  Lemma same_begin q1 q2 x1 x2 id w1 w2 p q : item_ok A m (x1, id, w1) -> item_ok A m (x2, id, w2) -> x1 ++ q1 = q -> x2 ++ q2 = q -> s = p ++ q -> (x1, id, w1) = (x2, id, w2).
  Proof.
    intros I1 I2 E1 E2 Es.
    assert (MIX : forall qa qb x c w, last_entry (u_vocab m) x id w -> x <> [] -> ~ In [c] (map fst (u_vocab m)) -> u_unk m = Some id -> x ++ qa = q -> [c] ++ qb = q -> False).
    { intros qa qb x c w LE NE NI U Ea Eb. apply NI. destruct x as [|d r]; [congruence|]. assert (Ec := Ea). rewrite <- Eb in Ec. cbn in Ec. injection Ec as -> _.
      eapply (proj1 (HU id (c :: r) w p qa U (proj1 LE) ltac:(rewrite Es; f_equal; congruence))). reflexivity. }
    destruct I1 as [[N1 LE1]|(c1 & -> & NI1 & U1 & ->)], I2 as [[N2 LE2]|(c2 & -> & NI2 & U2 & ->)].
    - destruct (item_vocab _ _ _ _ _ LE1 LE2) as [-> ->]. reflexivity.
    - exfalso. eapply MIX; eauto.
    - exfalso. eapply MIX; eauto.
    - rewrite <- E2 in E1. cbn in E1. injection E1 as -> _. reflexivity.
  Qed.

  Definition dplace : str * (str * N * W) := ([], ([], 0%N, a_zero A)).
  Definition place_at (i : nat) : str * (str * N * W) := nth (i - 2) L dplace.
  Lemma place_is j e : nth_error L j = Some e -> place_at (S (S j)) = e.
  Proof. clear - L. intros E. unfold place_at. replace (S (S j) - 2) with j by lia. apply nth_error_nth. exact E. Qed.
  Lemma places_nodup l : NoDup l -> (forall i, In i l -> exists j e, i = S (S j) /\ nth_error L j = Some e) -> NoDup (map place_at l).
  Proof.
    intros D H. apply nodup_map_inj; [exact D|]. intros a b Ha Hb E. destruct (H a Ha) as (j & e & -> & E1). destruct (H b Hb) as (j' & e' & -> & E2). rewrite (place_is _ _ E1), (place_is _ _ E2) in E. subst e'.
    rewrite NoDup_nth_error in ND. do 2 f_equal. apply ND; [apply nth_error_Some; congruence|congruence].
  Qed.

  Definition sc (i : nat) : K := match nth_error nodes i with Some n => ma_exp M (ln_score n) | None => zero end.
  Lemma sc_spec i n : nth_error nodes i = Some n -> ma_exp M (ln_score n) = sc i.
  Proof. intros E. unfold sc. rewrite E. reflexivity. Qed.
  Lemma sc_place j p it : nth_error L j = Some (p, it) -> sc (S (S j)) = ma_exp M (snd it).
  Proof. destruct it as [[x id] w]. intros E. unfold sc. rewrite (at_node _ _ _ _ _ E). reflexivity. Qed.
  Lemma sc_ends i : i < 2 -> sc i = one.
  Proof. intros H. unfold sc. rewrite (ho_nodes _ _ _ _ _ HH). destruct i as [|[|]]; [| |lia]; cbn; apply (xm_zero _ _ _ _ _ HX). Qed.

  (** What the cells hold after the sweeps. *)
  Definition before_of (i : nat) : K := match i with 0 => one | 1 => mass s | S (S j) => match nth_error L j with Some (p, _) => mass p | None => zero end end.
  Definition after_of (i : nat) : K := match i with 0 => mass s | 1 => one | S (S j) => match nth_error L j with Some (p, it) => mass (skipn (length (p ++ fst (fst it))) s) | None => zero end end.

  Lemma nth_some {X} (l : list X) k : k < length l -> exists x, nth_error l k = Some x.
  Proof. intros H. destruct (nth_error l k) eqn:E; [eauto|]. apply nth_error_None in E. lia. Qed.

  Lemma ends_from (p q : str) fs : s = p ++ q -> p <> [] -> nth_error (la_end la) (blen p) = Some fs ->
    forall l, In l fs <-> exists j p1 it, l = S (S j) /\ nth_error L j = Some (p1, it) /\ p1 ++ fst (fst it) = p.
  Proof.
    intros Es NE E l. rewrite (ho_end _ _ _ _ _ HH _ _ l E). split.
    - intros [[_ Z]|(j & p1 & it & -> & EL & Z)]; [exfalso; apply NE, blen_0; exact Z|]. exists j, p1, it. split; [reflexivity|]. split; [exact EL|].
      destruct (placed _ _ _ EL) as (_ & _ & (r & Er) & _). rewrite app_assoc, Es in Er. symmetry in Er. apply blen_split_eq in Er; [tauto|congruence].
    - intros (j & p1 & it & -> & EL & <-). right. eauto 8.
  Qed.
  Lemma begins_from (p q : str) fs : s = p ++ q -> q <> [] -> nth_error (la_begin la) (blen p) = Some fs ->
    forall l, In l fs <-> exists j it, l = S (S j) /\ nth_error L j = Some (p, it).
  Proof.
    intros Es NE E l. rewrite (ho_begin _ _ _ _ _ HH _ _ l E). split.
    - intros [[_ Z]|(j & p1 & it & -> & EL & Z)].
      + exfalso. apply NE, blen_0. rewrite Es, blen_app in Z. lia.
      + exists j, it. split; [reflexivity|]. destruct (placed _ _ _ EL) as (_ & _ & (r & Er) & _). rewrite Es in Er. symmetry in Er. apply blen_split_eq in Er; [|congruence]. destruct Er as [-> _]. exact EL.
    - intros (j & it & -> & EL). right. eauto 8.
  Qed.
  Lemma ends_0 fs : nth_error (la_end la) 0 = Some fs -> fs = [0].
  Proof.
    intros E. destruct (ho_bos _ _ _ _ _ HH) as (l & E'). rewrite E in E'. injection E' as ->. pose proof (ho_end_nd _ _ _ _ _ HH _ _ E) as D. f_equal.
    destruct l as [|x l]; [reflexivity|]. exfalso. assert (X : In x (0 :: x :: l)) by (right; left; reflexivity). rewrite (ho_end _ _ _ _ _ HH _ _ x E) in X. destruct X as [[-> _]|(j & p & it & -> & EL & Z)].
    - inversion D as [|? ? NI _]; subst. apply NI. left. reflexivity.
    - destruct (placed _ _ _ EL) as (_ & _ & _ & NE). apply NE, blen_0. rewrite blen_app in Z. lia.
  Qed.
  Lemma begins_end fs : nth_error (la_begin la) (blen s) = Some fs -> fs = [1].
  Proof.
    intros E. destruct (ho_eos _ _ _ _ _ HH) as (l & E'). rewrite E in E'. injection E' as ->. pose proof (ho_begin_nd _ _ _ _ _ HH _ _ E) as D. f_equal.
    destruct l as [|x l]; [reflexivity|]. exfalso. assert (X : In x (1 :: x :: l)) by (right; left; reflexivity). rewrite (ho_begin _ _ _ _ _ HH _ _ x E) in X. destruct X as [[-> _]|(j & p & it & -> & EL & Z)].
    - inversion D as [|? ? NI _]; subst. apply NI. left. reflexivity.
    - destruct (placed _ _ _ EL) as (B & _). lia.
  Qed.

  (** Where a node begins and ends. *)
  Lemma begin_of t pos ts : nth_error (la_begin la) pos = Some ts -> In t ts -> t <> 0 /\ t < length nodes /\ exists p q, s = p ++ q /\ pos = blen p /\ before_of t = mass p.
  Proof.
    intros E I. rewrite nodes_length. apply (ho_begin _ _ _ _ _ HH _ _ t E) in I. destruct I as [[-> ->]|(j & p & it & -> & EL & ->)].
    - split; [lia|]. split; [lia|]. exists s, []. rewrite app_nil_r. auto.
    - split; [lia|]. split; [assert (j < length L) by (apply nth_error_Some; congruence); lia|]. destruct (placed _ _ _ EL) as (_ & _ & (r & Er) & _). exists p, (fst (fst it) ++ r). split; [exact Er|]. split; [reflexivity|]. unfold before_of. rewrite EL. reflexivity.
  Qed.
  Lemma end_of t pos ts : nth_error (la_end la) pos = Some ts -> In t ts -> t <> 1 /\ t < length nodes /\ exists p q, s = p ++ q /\ pos = blen p /\ after_of t = mass q.
  Proof.
    intros E I. rewrite nodes_length. apply (ho_end _ _ _ _ _ HH _ _ t E) in I. destruct I as [[-> ->]|(j & p & it & -> & EL & ->)].
    - split; [lia|]. split; [lia|]. exists [], s. auto.
    - split; [lia|]. split; [assert (j < length L) by (apply nth_error_Some; congruence); lia|]. destruct (placed _ _ _ EL) as (_ & _ & (r & Er) & _). exists (p ++ fst (fst it)), r. split; [rewrite <- app_assoc; exact Er|]. split; [reflexivity|]. unfold after_of. rewrite EL.
      rewrite Er, app_assoc, skipn_app, skipn_all, Nat.sub_diag. reflexivity.
  Qed.

  Lemma step_forward before pos after : seq 0 (S (blen s)) = before ++ pos :: after -> step_ok M zero nodes sc before_of (la_begin la) (la_end la) 0 before pos.
  Proof.
    intros EQ. destruct (seq_split _ _ _ _ _ EQ) as (HB & _ & LP). 
    destruct (nth_some (la_begin la) pos) as (ts & E1); [rewrite (ho_lenb _ _ _ _ _ HH); lia|]. destruct (nth_some (la_end la) pos) as (fs & E2); [rewrite (ho_lene _ _ _ _ _ HH); lia|].
    exists ts, fs. split; [exact E1|]. split; [exact E2|]. intros NT.
    assert (GP : exists p q, s = p ++ q /\ pos = blen p). { destruct ts as [|t0 ts]; [congruence|]. destruct (begin_of t0 pos _ E1) as (_ & _ & p & q & X & Y & _); [left; reflexivity|]. eauto. }
    destruct GP as (p & q & Es & ->).
    assert (GT : forall t, In t ts -> t < length nodes /\ ~ known_after (la_begin la) 0 before t /\ before_of t = mass p).
    { intros t Ht. destruct (begin_of t _ _ E1 Ht) as (T0 & TL & p' & q' & Es' & EP & V). split; [exact TL|]. split.
      - intros [->|(pos' & ts' & Ip & Et & It)]; [congruence|]. apply HB in Ip. apply (ho_begin _ _ _ _ _ HH _ _ t E1) in Ht. apply (ho_begin _ _ _ _ _ HH _ _ t Et) in It.
        destruct Ht as [[-> Ht]|(j & p1 & it & -> & EL & Ht)], It as [[It It']|(j' & p1' & it' & It & EL' & It')]; try lia; try discriminate. injection It as <-. rewrite EL in EL'. injection EL' as <- <-. lia.
      - rewrite V. f_equal. rewrite Es in Es'. apply blen_split_eq in Es'; [destruct Es' as [<- _]; reflexivity|exact EP]. }
    destruct (list_eq_dec N.eq_dec p []) as [->|NP].
    - cbn in E2. apply ends_0 in E2. subst fs. exists 0, []. destruct (nth_some nodes 0) as (n & En); [rewrite nodes_length; lia|]. exists n. split; [reflexivity|]. split; [exact En|]. split; [intros l []|]. split.
      + intros l [<-|[]]. left. reflexivity.
      + intros t Ht. destruct (GT t Ht) as (T1 & T2 & T3). split; [exact T1|]. split; [exact T2|]. rewrite T3, (mass_nil A M zero one inv HX m). cbn [map MarginalSpec.ksum fold_right before_of]. rewrite sc_ends by lia. ring.
    - pose proof (ends_from p q fs Es NP E2) as FF.
      assert (NF : fs <> []).
      { destruct (exists_last NP) as (p0 & c & ->). rewrite <- app_assoc in Es. destruct (HP p0 c q Es) as (it & I & Et). apply In_nth_error in I. destruct I as (j & EL). intros ->. apply (FF (S (S j))). exists j, p0, it. rewrite Et. auto. }
      destruct fs as [|f from]; [congruence|]. destruct (proj1 (FF f) (or_introl eq_refl)) as (jf & pf & [[xf idf] wf0] & -> & ELf & EPf). exists (S (S jf)), from. exists (lnode_new A idf (blen pf) (blen xf) wf0).
      pose proof (ho_end_nd _ _ _ _ _ HH _ _ E2) as DF. split; [reflexivity|]. split; [apply at_node; exact ELf|]. split; [|split].
      + intros l Hl. destruct (proj1 (FF l) (or_intror Hl)) as (j & p1 & [[x id] w] & -> & EL & EP). exists (lnode_new A id (blen p1) (blen x) w). split; [apply at_node; exact EL|]. cbn [ln_id lnode_new]. intros ->.
        destruct (placed _ _ _ ELf) as (_ & I1 & _). destruct (placed _ _ _ EL) as (_ & I2 & _). pose proof (same_end pf p1 xf x idf wf0 w p q I1 I2 EPf EP Es) as SE.
        assert (j = jf) by (rewrite NoDup_nth_error in ND; apply ND; [apply nth_error_Some; congruence|congruence]). subst j. inversion DF as [|? ? NI _]; subst. contradiction.
      + intros l Hl. apply FF in Hl. destruct Hl as (j & p1 & it & -> & EL & EP). right. destruct (placed _ _ _ EL) as (B & _ & _ & NE). destruct (nth_some (la_begin la) (blen p1)) as (ts' & Et); [rewrite (ho_lenb _ _ _ _ _ HH); lia|].
        exists (blen p1), ts'. split; [|split; [exact Et|]].
        * apply HB. split; [lia|]. rewrite <- EP, blen_app. destruct (fst (fst it)) as [|c r]; [congruence|]. pose proof (len_utf8_pos c). cbn [blen map list_sum fold_right]. cbn. lia.
        * apply (ho_begin _ _ _ _ _ HH _ _ _ Et). right. exists j, p1, it. auto.
      + intros t Ht. destruct (GT t Ht) as (T1 & T2 & T3). split; [exact T1|]. split; [exact T2|]. rewrite T3.
        assert (FP : forall i, In i (S (S jf) :: from) -> exists j e, i = S (S j) /\ nth_error L j = Some e) by (intros i Hi; apply FF in Hi; destruct Hi as (j & p1 & it & -> & EL & _); eauto).
        rewrite (mass_last A M zero one inv HX m Hwf p (map place_at (S (S jf) :: from)) NP (places_nodup _ DF FP)).
        * rewrite map_map. apply (ksum_ext M zero). intros i Hi. destruct (FP i Hi) as (j & [p1 it] & -> & EL). rewrite (place_is _ _ EL), (sc_place _ _ _ EL). cbn [before_of fst snd]. rewrite EL. reflexivity.
        * intros p1 it. rewrite in_map_iff. split.
          -- intros (i & EI & Hi). apply FF in Hi. destruct Hi as (j & p2 & it2 & -> & EL & EP). rewrite (place_is _ _ EL) in EI. injection EI as <- <-. split; [apply (placed _ _ _ EL)|exact EP].
          -- intros [IO EP]. assert (IL : In (p1, it) L). { apply AL. split; [|split; [exact IO|exists q; rewrite app_assoc, EP; exact Es]]. rewrite Es, <- EP, !blen_app. pose proof (item_text A m it IO) as NE. destruct (fst (fst it)) as [|c r]; [congruence|]. pose proof (len_utf8_pos c). cbn. lia. }
             apply In_nth_error in IL. destruct IL as (j & EL). exists (S (S j)). split; [apply place_is; exact EL|]. apply FF. exists j, p1, it. auto.
  Qed.

  Lemma step_backward before pos after : rev (seq 0 (S (blen s))) = before ++ pos :: after -> step_ok M zero nodes sc after_of (la_end la) (la_begin la) 1 before pos.
  Proof.
    intros EQ. assert (EQ' : seq 0 (S (blen s)) = rev after ++ pos :: rev before).
    { rewrite <- (rev_involutive (seq 0 (S (blen s)))), EQ, rev_app_distr. cbn [rev]. rewrite <- app_assoc. reflexivity. }
    destruct (seq_split _ _ _ _ _ EQ') as (_ & HB0 & LP). assert (HB : forall y, In y before <-> pos < y < S (blen s)) by (intros y; rewrite (in_rev before), HB0; reflexivity). clear HB0 EQ'.
    destruct (nth_some (la_begin la) pos) as (fs & E2); [rewrite (ho_lenb _ _ _ _ _ HH); lia|]. destruct (nth_some (la_end la) pos) as (ts & E1); [rewrite (ho_lene _ _ _ _ _ HH); lia|].
    exists ts, fs. split; [exact E1|]. split; [exact E2|]. intros NT.
    assert (GP : exists p q, s = p ++ q /\ pos = blen p). { destruct ts as [|t0 ts]; [congruence|]. destruct (end_of t0 pos _ E1) as (_ & _ & p & q & X & Y & _); [left; reflexivity|]. eauto. }
    destruct GP as (p & q & Es & ->).
    assert (GT : forall t, In t ts -> t < length nodes /\ ~ known_after (la_end la) 1 before t /\ after_of t = mass q).
    { intros t Ht. destruct (end_of t _ _ E1 Ht) as (T0 & TL & p' & q' & Es' & EP & V). split; [exact TL|]. split.
      - intros [->|(pos' & ts' & Ip & Et & It)]; [congruence|]. apply HB in Ip. apply (ho_end _ _ _ _ _ HH _ _ t E1) in Ht. apply (ho_end _ _ _ _ _ HH _ _ t Et) in It.
        destruct Ht as [[-> Ht]|(j & p1 & it & -> & EL & Ht)], It as [[It It']|(j' & p1' & it' & It & EL' & It')]; try lia; try discriminate. injection It as <-. rewrite EL in EL'. injection EL' as <- <-. lia.
      - rewrite V. f_equal. rewrite Es in Es'. apply blen_split_eq in Es'; [destruct Es' as [_ <-]; reflexivity|exact EP]. }
    destruct (list_eq_dec N.eq_dec q []) as [->|NP].
    - rewrite app_nil_r in Es. subst p. apply begins_end in E2. subst fs. exists 1, []. destruct (nth_some nodes 1) as (n & En); [rewrite nodes_length; lia|]. exists n. split; [reflexivity|]. split; [exact En|]. split; [intros l []|]. split.
      + intros l [<-|[]]. left. reflexivity.
      + intros t Ht. destruct (GT t Ht) as (T1 & T2 & T3). split; [exact T1|]. split; [exact T2|]. rewrite T3, (mass_nil A M zero one inv HX m). cbn [map MarginalSpec.ksum fold_right after_of]. rewrite sc_ends by lia. ring.
    - pose proof (begins_from p q fs Es NP E2) as FF.
      assert (NF : fs <> []).
      { destruct q as [|c q]; [congruence|]. destruct (HP p c q Es) as (it & I & Et). apply In_nth_error in I. destruct I as (j & EL). intros ->. apply (FF (S (S j))). exists j, it. auto. }
      destruct fs as [|f from]; [congruence|]. destruct (proj1 (FF f) (or_introl eq_refl)) as (jf & [[xf idf] wf0] & -> & ELf). exists (S (S jf)), from. exists (lnode_new A idf (blen p) (blen xf) wf0).
      pose proof (ho_begin_nd _ _ _ _ _ HH _ _ E2) as DF. split; [reflexivity|]. split; [apply at_node; exact ELf|].
      assert (REST : forall j it, nth_error L j = Some (p, it) -> exists r, q = fst (fst it) ++ r /\ skipn (length (p ++ fst (fst it))) s = r).
      { intros j it EL. destruct (placed _ _ _ EL) as (_ & _ & (r & Er) & _). exists r. rewrite Es in Er. apply app_inv_head in Er. split; [exact Er|]. rewrite Es, Er, app_assoc, skipn_app, skipn_all, Nat.sub_diag. reflexivity. }
      split; [|split].
      + intros l Hl. destruct (proj1 (FF l) (or_intror Hl)) as (j & [[x id] w] & -> & EL). exists (lnode_new A id (blen p) (blen x) w). split; [apply at_node; exact EL|]. cbn [ln_id lnode_new]. intros ->.
        destruct (placed _ _ _ ELf) as (_ & I1 & _). destruct (placed _ _ _ EL) as (_ & I2 & _). destruct (REST _ _ ELf) as (rf & EPf & _). destruct (REST _ _ EL) as (r & EP & _).
        pose proof (same_begin rf r xf x idf wf0 w p q I1 I2 (eq_sym EPf) (eq_sym EP) Es) as SE.
        assert (j = jf) by (rewrite NoDup_nth_error in ND; apply ND; [apply nth_error_Some; congruence|congruence]). subst j. inversion DF as [|? ? NI _]; subst. contradiction.
      + intros l Hl. apply FF in Hl. destruct Hl as (j & it & -> & EL). right. destruct (placed _ _ _ EL) as (B & _ & (r & Er) & NE). destruct (nth_some (la_end la) (blen (p ++ fst (fst it)))) as (ts' & Et); [rewrite (ho_lene _ _ _ _ _ HH); rewrite Er, !blen_app; lia|].
        exists (blen (p ++ fst (fst it))), ts'. split; [|split; [exact Et|]].
        * apply HB. split; [|rewrite Er, !blen_app; lia]. rewrite blen_app. destruct (fst (fst it)) as [|c r']; [congruence|]. pose proof (len_utf8_pos c). cbn. lia.
        * apply (ho_end _ _ _ _ _ HH _ _ _ Et). right. exists j, p, it. auto.
      + intros t Ht. destruct (GT t Ht) as (T1 & T2 & T3). split; [exact T1|]. split; [exact T2|]. rewrite T3.
        assert (FP : forall i, In i (S (S jf) :: from) -> exists j it, i = S (S j) /\ nth_error L j = Some (p, it)) by (intros i Hi; apply FF in Hi; destruct Hi as (j & it & -> & EL); eauto).
        set (tail := fun e : str * (str * N * W) => (snd e, skipn (length (fst e ++ fst (fst (snd e)))) s)).
        rewrite (mass_first A M zero one inv HX m Hwf q (map (fun i => tail (place_at i)) (S (S jf) :: from)) NP).
        * rewrite map_map. apply (ksum_ext M zero). intros i Hi. destruct (FP i Hi) as (j & it & -> & EL). rewrite (place_is _ _ EL), (sc_place _ _ _ EL). unfold tail. cbn [after_of fst snd]. rewrite EL. reflexivity.
        * apply nodup_map_inj; [exact DF|]. intros a b Ha Hb E. destruct (FP a Ha) as (j & it & -> & E3). destruct (FP b Hb) as (j' & it' & -> & E4). rewrite (place_is _ _ E3), (place_is _ _ E4) in E. unfold tail in E. cbn [fst snd] in E. injection E as <- _.
          rewrite NoDup_nth_error in ND. do 2 f_equal. apply ND; [apply nth_error_Some; congruence|congruence].
        * intros it r. rewrite in_map_iff. split.
          -- intros (i & EI & Hi). destruct (FP i Hi) as (j & it2 & -> & EL). rewrite (place_is _ _ EL) in EI. unfold tail in EI. cbn [fst snd] in EI. injection EI as <- <-. split; [apply (placed _ _ _ EL)|]. destruct (REST _ _ EL) as (r' & R1 & R2). rewrite R2, R1. reflexivity.
          -- intros [IO EP]. assert (IL : In (p, it) L). { apply AL. split; [|split; [exact IO|exists r; rewrite EP; exact Es]]. rewrite Es, blen_app. destruct q as [|c q']; [congruence|]. pose proof (len_utf8_pos c). cbn. lia. }
             apply In_nth_error in IL. destruct IL as (j & EL). exists (S (S j)). split; [|apply FF; exists j, it; auto]. rewrite (place_is _ _ EL). unfold tail. cbn [fst snd]. destruct (REST _ _ EL) as (r' & R1 & R2). rewrite R2. f_equal. rewrite R1 in EP. apply app_inv_head in EP. congruence.
  Qed.

  Lemma repeat_right k i : i < k -> nth_error (repeat (a_zero A) k) i = Some (a_zero A).
  Proof. intros H. apply nth_error_repeat. exact H. Qed.

  Lemma forward_spec weigh : (forall x, ma_exp M (weigh x) = ma_exp M x) -> exists alpha, forward A M weigh la = Ok alpha /\ length alpha = length nodes /\ forall i, i < length nodes -> right M before_of alpha i.
  Proof.
    intros Hw. unfold forward. rewrite (ho_s _ _ _ _ _ HH).
    destruct (sweep_spec A M zero one inv HX nodes weigh Hw sc before_of sc_spec (la_begin la) (la_end la) 0 (seq 0 (S (blen s))) [] (repeat (a_zero A) (length nodes))) as (alpha & E & LA & R).
    - apply repeat_length.
    - intros i [->|(pos & ts & [] & _)]. exists (a_zero A). split; [apply repeat_right; rewrite nodes_length; lia|apply (xm_zero _ _ _ _ _ HX)].
    - apply step_forward.
    - exists alpha. split; [exact E|]. split; [exact LA|]. intros i Hi. apply R. cbn [app]. rewrite nodes_length in Hi. destruct i as [|i]; [left; reflexivity|]. right.
      destruct i as [|j].
      + destruct (nth_some (la_begin la) (blen s)) as (ts & Et); [rewrite (ho_lenb _ _ _ _ _ HH); lia|]. exists (blen s), ts. split; [apply in_seq; lia|]. split; [exact Et|]. apply (ho_begin _ _ _ _ _ HH _ _ _ Et). auto.
      + destruct (nth_some L j) as ([p it] & EL); [lia|]. destruct (placed _ _ _ EL) as (B & _). destruct (nth_some (la_begin la) (blen p)) as (ts & Et); [rewrite (ho_lenb _ _ _ _ _ HH); lia|]. exists (blen p), ts. split; [apply in_seq; lia|]. split; [exact Et|]. apply (ho_begin _ _ _ _ _ HH _ _ _ Et). right. eauto 8.
  Qed.
  Lemma backward_spec : exists beta, backward A M la = Ok beta /\ length beta = length nodes /\ forall i, i < length nodes -> right M after_of beta i.
  Proof.
    unfold backward. rewrite (ho_s _ _ _ _ _ HH).
    destruct (sweep_spec A M zero one inv HX nodes (fun x => x) (fun x => eq_refl) sc after_of sc_spec (la_end la) (la_begin la) 1 (rev (seq 0 (S (blen s)))) [] (repeat (a_zero A) (length nodes))) as (beta & E & LA & R).
    - apply repeat_length.
    - intros i [->|(pos & ts & [] & _)]. exists (a_zero A). split; [apply repeat_right; rewrite nodes_length; lia|apply (xm_zero _ _ _ _ _ HX)].
    - apply step_backward.
    - exists beta. split; [exact E|]. split; [exact LA|]. intros i Hi. apply R. cbn [app]. rewrite nodes_length in Hi.
      destruct i as [|[|j]]; [|left; reflexivity|].
      + right. destruct (nth_some (la_end la) 0) as (ts & Et); [rewrite (ho_lene _ _ _ _ _ HH); lia|]. exists 0, ts. split; [rewrite <- in_rev; apply in_seq; lia|]. split; [exact Et|]. apply (ho_end _ _ _ _ _ HH _ _ _ Et). auto.
      + right. destruct (nth_some L j) as ([p it] & EL); [lia|]. destruct (placed _ _ _ EL) as (B & _ & (r & Er) & _). assert (LB : blen (p ++ fst (fst it)) <= blen s) by (rewrite Er, !blen_app; lia).
        destruct (nth_some (la_end la) (blen (p ++ fst (fst it)))) as (ts & Et); [rewrite (ho_lene _ _ _ _ _ HH); lia|]. exists (blen (p ++ fst (fst it))), ts. split; [rewrite <- in_rev; apply in_seq; lia|]. split; [exact Et|]. apply (ho_end _ _ _ _ _ HH _ _ _ Et). right. eauto 8.
  Qed.
End lattice.
