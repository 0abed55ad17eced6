(** The Viterbi search on the lattice of Unigram never fails, whatever the
    arithmetic does: no law of scores is needed, so scores may be NaN. *)
From Verif Require Import Base StrBytes ListFacts AMap Utf8 EncodingModel BpeWordModel BpeWordProofs BpeModel TrieModel TrieProps UnigramModel UnigramSpec UnigramProofs UnigramProofs2 UnigramProofs3.

Section viterbi_free.
  Context {W : Type} (A : arith W) (m : unigram W) (s : str).

  Notation place := (list N * (list N * N * W))%type.
  Notation holds := (holds A m s).
  Notation chain := (chain s).

  Lemma vit_best_any nodes rs ends : Forall (fun l => exists nl, nth_error nodes l = Some nl) ends ->
    forall b v, exists b' v', vit_best A nodes rs ends (Some (b, v)) = Ok (Some (b', v')) /\ (b' = b \/ In b' ends).
  Proof.
    induction 1 as [|l ends (nl & En) F IH]; intros b v; cbn [vit_best]; [eauto|]. rewrite En. cbn [of_option bind].
    destruct (a_gtb A (a_add A (ln_back nl) rs) v).
    - destruct (IH l (a_add A (ln_back nl) rs)) as (b' & v' & E & [->|I]); eexists _, _; (split; [exact E|]); cbn; auto.
    - destruct (IH b v) as (b' & v' & E & [->|I]); eexists _, _; (split; [exact E|]); cbn; auto.
  Qed.
  Lemma vit_best_in nodes rs ends : ends <> [] -> Forall (fun l => exists nl, nth_error nodes l = Some nl) ends ->
    exists b v, vit_best A nodes rs ends None = Ok (Some (b, v)) /\ In b ends.
  Proof.
    intros NE F. destruct ends as [|l ends]; [congruence|]. inversion F as [|? ? (nl & En) F']; subst. cbn [vit_best]. rewrite En. cbn [of_option bind].
    destruct (vit_best_any nodes rs ends F' l (a_add A (ln_back nl) rs)) as (b & v & E & [->|I]); eexists _, _; (split; [exact E|]); cbn; auto.
  Qed.

  Lemma vit_pos_any ends : ends <> [] -> forall begins nodes,
    Forall (fun l => exists nl, nth_error nodes l = Some nl) ends -> Forall (fun r => exists nr, nth_error nodes r = Some nr) begins ->
    exists nodes', vit_pos A begins ends nodes = Ok (nodes', true) /\ statics nodes' nodes /\
      (forall i, ~ In i begins -> nth_error nodes' i = nth_error nodes i) /\
      (forall i, In i begins -> exists n' b, nth_error nodes' i = Some n' /\ ln_prev n' = Some b /\ In b ends).
  Proof.
    intros NE. induction begins as [|r begins IH]; intros nodes FE FB; cbn [vit_pos].
    - exists nodes. repeat split; [apply statics_refl|]. intros i [].
    - inversion FB as [|? ? (nr & En) FB']; subst. rewrite En. cbn [of_option bind].
      set (clear := fun n : lnode W => mkLn (ln_id n) (ln_pos n) (ln_len n) None (ln_back n) (ln_score n)).
      set (cleared := upd nodes r clear).
      assert (EX : forall f i, (exists n, nth_error nodes i = Some n) -> exists n, nth_error (upd nodes r f) i = Some n).
      { intros f i (n & E). rewrite nth_error_upd. destruct (r =? i) eqn:Q; [|eauto]. apply Nat.eqb_eq in Q. subst i. rewrite En. cbn. eauto. }
      destruct (vit_best_in cleared (ln_score nr) ends NE) as (b & v & EB & IB).
      { eapply Forall_impl; [|exact FE]. intros l Hl. apply EX. exact Hl. }
      rewrite EB. cbn [bind]. fold (setn b v). set (nodes1 := upd cleared r (setn b v)).
      assert (S1 : statics nodes1 nodes).
      { eapply statics_trans; [apply statics_upd; intros; repeat split|]. apply statics_upd. intros; repeat split. }
      assert (K1 : forall i, i <> r -> nth_error nodes1 i = nth_error nodes i).
      { intros i Q. unfold nodes1, cleared. rewrite !nth_upd_ne by congruence. reflexivity. }
      assert (E1 : nth_error nodes1 r = Some (setn b v (clear nr))).
      { unfold nodes1, cleared. rewrite !nth_error_upd, Nat.eqb_refl, En. reflexivity. }
      assert (EX1 : forall i, (exists n, nth_error nodes i = Some n) -> exists n, nth_error nodes1 i = Some n).
      { intros i (n & E). destruct (statics_nth _ _ _ _ S1 E) as (n' & E' & _). eauto. }
      destruct (IH nodes1) as (nodes' & E' & S' & K' & B').
      { eapply Forall_impl; [|exact FE]. intros l Hl. apply EX1. exact Hl. }
      { eapply Forall_impl; [|exact FB']. intros l Hl. apply EX1. exact Hl. }
      exists nodes'. split; [exact E'|]. split; [eapply statics_trans; eauto|]. split.
      + intros i Hi. cbn [In] in Hi. rewrite K' by tauto. apply K1. intros ->. tauto.
      + intros i Hi. destruct (in_dec Nat.eq_dec i begins) as [Q|Q]; [apply B'; exact Q|].
        destruct Hi as [<-|Hi]; [|contradiction]. rewrite K' by exact Q. exists (setn b v (clear nr)), b. split; [exact E1|]. split; [reflexivity|exact IB].
  Qed.

  Context (la : lattice W) (L : list place) (HH : holds la L).
  Context (Hbegin : forall p c q, s = p ++ c :: q -> exists it, In (p, it) L).
  Context (Hend : forall p c q, s = p ++ c :: q -> exists p' it, In (p', it) L /\ p ++ [c] = p' ++ fst (fst it)).

  Local Notation any := (fun _ : W => True).
  Local Notation all_any := (fun _ _ _ => I : True).
  Local Notation free_node_exists := (node_exists A m s any la L HH all_any Hbegin Hend).
  Local Notation free_ends_earlier := (ends_earlier A m s any la L HH all_any Hbegin Hend).
  Local Notation free_vchain_len := (vchain_len A m s any la L HH all_any Hbegin Hend).

  Record finv (k : nat) (nodes : list (lnode W)) : Prop := {
    fi_static : statics nodes (la_nodes la);
    fi_bos : exists n, nth_error nodes 0 = Some n /\ ln_prev n = None;
    fi_done : forall i n, nth_error nodes (S i) = Some n -> ln_pos n < k -> exists b ends, ln_prev n = Some b /\ nth_error (la_end la) (ln_pos n) = Some ends /\ In b ends }.

  Lemma free_step p rest nodes : s = p ++ rest -> finv (blen p) nodes ->
    exists begins ends nodes', nth_error (la_begin la) (blen p) = Some begins /\ nth_error (la_end la) (blen p) = Some ends /\ is_nil begins = false /\
      vit_pos A begins ends nodes = Ok (nodes', true) /\ finv (S (blen p)) nodes'.
  Proof.
    intros Es FI. pose proof (fi_static _ _ FI) as ST.
    assert (LP : blen p <= blen s) by (rewrite Es, blen_app; lia).
    destruct (nth_error (la_begin la) (blen p)) as [begins|] eqn:EB; [|apply nth_error_None in EB; rewrite (ho_lenb _ _ _ _ _ HH) in EB; lia].
    destruct (nth_error (la_end la) (blen p)) as [ends|] eqn:EE; [|apply nth_error_None in EE; rewrite (ho_lene _ _ _ _ _ HH) in EE; lia].
    assert (NB : begins <> []).
    { intros ->. destruct rest as [|c q].
      - apply (proj2 (ho_begin _ _ _ _ _ HH _ _ 1 EB)). left. rewrite app_nil_r in Es. rewrite Es. auto.
      - destruct (Hbegin _ _ _ Es) as (it & Hin). apply In_nth_error in Hin. destruct Hin as (j & Ej). apply (proj2 (ho_begin _ _ _ _ _ HH _ _ (S (S j)) EB)). right. eauto 8. }
    assert (NE : ends <> []).
    { intros ->. destruct (exists_last_or_nil p) as [->|(p0 & c & ->)].
      - apply (proj2 (ho_end _ _ _ _ _ HH _ _ 0 EE)). left. auto.
      - rewrite <- app_assoc in Es. destruct (Hend _ _ _ Es) as (p' & it & Hin & EP). apply In_nth_error in Hin. destruct Hin as (j & Ej).
        apply (proj2 (ho_end _ _ _ _ _ HH _ _ (S (S j)) EE)). right. exists j, p', it. rewrite EP. auto. }
    assert (POS : forall r, In r begins -> exists j nr, r = S j /\ nth_error nodes r = Some nr /\ ln_pos nr = blen p).
    { intros r Hr. apply (ho_begin _ _ _ _ _ HH _ _ r EB) in Hr. destruct Hr as [[-> EP]|(j & p' & [[x id] w] & -> & EL & EP)].
      - destruct (free_node_exists nodes 1 ST ltac:(lia)) as (n & En). exists 0, n. split; [reflexivity|]. split; [exact En|].
        destruct (node_cases A m s la L HH _ _ _ ST En) as [[X _]|[[_ (_ & SP & _ & SS)]|(j' & p' & x' & id' & w' & X & _)]]; try lia. rewrite SP. cbn. auto.
      - assert (j < length L) by (apply nth_error_Some; congruence). destruct (free_node_exists nodes (S (S j)) ST ltac:(lia)) as (n & En). exists (S j), n. split; [reflexivity|]. split; [exact En|].
        destruct (node_cases A m s la L HH _ _ _ ST En) as [[X _]|[[X _]|(j' & p2 & x' & id' & w' & X & EL' & (_ & SP & _ & SS))]]; try lia. injection X as <-. rewrite EL in EL'. injection EL' as <- <- <- <-.
        rewrite SP. cbn. auto. }
    destruct (vit_pos_any ends NE begins nodes) as (nodes' & EV & S' & K' & B').
    { apply Forall_forall. intros l Hl. destruct (free_ends_earlier nodes _ _ _ ST EE Hl) as (n & En & _). eauto. }
    { apply Forall_forall. intros r Hr. destruct (POS r Hr) as (j & nr & -> & En & EP). eauto. }
    exists begins, ends, nodes'. repeat split; try assumption.
    { destruct begins; [congruence|reflexivity]. }
    { eapply statics_trans; eauto. }
    { destruct (fi_bos _ _ FI) as (n0 & E0 & X). exists n0. split; [|exact X]. rewrite K'; [exact E0|]. intros Hi. destruct (POS 0 Hi) as (j & _ & X' & _). discriminate. }
    intros i n En LT. destruct (in_dec Nat.eq_dec (S i) begins) as [Hi|Hi].
    - destruct (B' _ Hi) as (n' & b & E1 & E2 & E3). rewrite En in E1. injection E1 as <-.
      destruct (POS _ Hi) as (j & nr & _ & Er & EP). destruct (statics_nth _ _ _ _ S' Er) as (n2 & En2 & (_ & SP & _)). rewrite En in En2. injection En2 as <-.
      exists b, ends. split; [exact E2|]. rewrite SP, EP. auto.
    - rewrite K' in En by exact Hi. assert (LT' : ln_pos n < blen p).
      { destruct (Nat.eq_dec (ln_pos n) (blen p)) as [X|X]; [exfalso|lia]. apply Hi. apply (ho_begin _ _ _ _ _ HH _ _ _ EB).
        destruct (node_cases A m s la L HH _ _ _ ST En) as [[Y _]|[[Y (_ & SP & _)]|(j' & p2 & x' & id' & w' & Y & EL' & (_ & SP & _))]]; [lia| |].
        - left. rewrite SP in X. cbn in X. auto.
        - right. rewrite SP in X. cbn in X. exists j', p2, (x', id', w'). auto. }
      exact (fi_done _ _ FI _ _ En LT').
  Qed.

  Lemma free_loop rest : forall p nodes, s = p ++ rest -> finv (blen p) nodes -> exists nodes', vit_loop A la rest (blen p) nodes = Ok (nodes', true) /\ finv (S (blen s)) nodes'.
  Proof.
    induction rest as [|c rest IH]; intros p nodes Es FI; cbn [vit_loop]; destruct (free_step _ _ _ Es FI) as (begins & ends & nodes' & -> & -> & NB & EV & I'); cbn [of_option bind]; rewrite NB, EV; cbn [bind].
    - exists nodes'. split; [reflexivity|]. rewrite app_nil_r in Es. rewrite Es. exact I'.
    - pose proof (IH (p ++ [c]) nodes') as IH'. rewrite blen_app in IH'. cbn [blen] in IH'. rewrite Nat.add_0_r in IH'. apply IH'; [rewrite <- app_assoc; exact Es|].
      destruct I' as [ST B D]. constructor; [exact ST|exact B|]. intros i n En LT. apply (D _ _ En). destruct (node_boundary A m s la L HH _ _ _ ST En) as (p' & q' & Es' & EP). rewrite EP in *.
      destruct (Nat.lt_ge_cases (blen p') (S (blen p))) as [X|X]; [exact X|exfalso]. rewrite Es in Es'. destruct (blen_prefix_cmp _ _ _ _ Es' ltac:(lia)) as (y & -> & Ey).
      destruct y as [|d y]; [rewrite app_nil_r in X; lia|]. cbn in Ey. injection Ey as <- _. rewrite blen_app in LT. cbn in LT. lia.
  Qed.

  Lemma free_chain nodes (V : finv (S (blen s)) nodes) : forall fuel j p x id w n, blen p < fuel -> nth_error L j = Some (p, (x, id, w)) -> nth_error nodes (S (S j)) = Some n ->
    exists ids seg, vchain L nodes (p ++ x) (S (S j)) ids seg.
  Proof.
    induction fuel as [|fuel IH]; intros j p x id w n LF EL En; [lia|].
    pose proof (fi_static _ _ V) as ST. destruct (L_fit A m s la L HH _ _ _ _ _ EL) as [NX (q & Es)].
    destruct (node_cases A m s la L HH _ _ _ ST En) as [[Y _]|[[Y (_ & SP & _)]|(j' & p2 & x' & id' & w' & Y & EL' & (_ & SP & _ & SS))]]; try lia. injection Y as <-. rewrite EL in EL'. injection EL' as <- <- <- <-. cbn in SP, SS.
    destruct (fi_done _ _ V _ _ En) as (b & ends & P1 & P2 & Ib). { rewrite SP, Es, blen_app. lia. }
    rewrite SP in P2. pose proof Ib as Ib'. apply (ho_end _ _ _ _ _ HH _ _ b P2) in Ib. destruct Ib as [[-> EP]|(j2 & p2 & [[x2 id2] w2] & -> & EL2 & EP)].
    - assert (p = []) by (apply blen_0; exact EP). subst p. exists ([] ++ [S (S j)]), ([] ++ [(x, id, w)]). econstructor; eauto; constructor.
    - cbn [fst] in EP. destruct (L_fit A m s la L HH _ _ _ _ _ EL2) as [NX2 (q2 & Es2)]. pose proof (blen_app_pos p2 x2 NX2).
      assert (EPP : p = p2 ++ x2) by (rewrite Es in Es2; rewrite (app_assoc p2) in Es2; apply (proj1 (blen_split_eq _ _ _ _ Es2 EP))).
      destruct (free_ends_earlier nodes _ _ _ ST P2 Ib') as (nb & Eb & _).
      destruct (IH j2 p2 x2 id2 w2 nb) as (ids & seg & C); [lia|exact EL2|exact Eb|]. rewrite <- EPP in C.
      exists (ids ++ [S (S j)]), (seg ++ [(x, id, w)]). econstructor; eauto.
  Qed.

  Lemma finv_init : finv 0 (la_nodes la).
  Proof. constructor; [apply statics_refl| |intros; lia]. rewrite (ho_nodes _ _ _ _ _ HH). eexists. split; reflexivity. Qed.

  Theorem viterbi_free : exists nodes path seg, viterbi A la = Ok (nodes, path) /\ statics nodes (la_nodes la) /\ chain L [] path seg.
  Proof.
    unfold viterbi. rewrite (ho_s _ _ _ _ _ HH). destruct (free_loop s [] (la_nodes la) eq_refl finv_init) as (nodes & E & V). cbn [blen] in E. rewrite E. cbn [bind].
    pose proof (fi_static _ _ V) as ST.
    destruct (ho_eos _ _ _ _ _ HH) as (l & El). unfold eos_node. rewrite (ho_s _ _ _ _ _ HH), El. cbn [of_option bind hd_error].
    destruct (free_node_exists nodes 1 ST ltac:(lia)) as (n & En). rewrite En. cbn [of_option bind].
    destruct (node_cases A m s la L HH _ _ _ ST En) as [[Y _]|[[_ (_ & SP & _ & SS)]|(j' & p2 & x' & id' & w' & Y & _)]]; try lia. cbn in SP.
    destruct (fi_done _ _ V _ _ En) as (b & ends & P1 & P2 & Ib); [lia|]. rewrite P1. rewrite SP in P2.
    assert (VC : exists ids seg, vchain L nodes s b ids seg).
    { pose proof Ib as Ib'. apply (ho_end _ _ _ _ _ HH _ _ b P2) in Ib'. destruct Ib' as [[-> EP]|(j2 & p2 & [[x2 id2] w2] & -> & EL2 & EP)].
      - pose proof (blen_0 _ EP) as Z. exists [], []. rewrite Z. constructor.
      - destruct (L_fit A m s la L HH _ _ _ _ _ EL2) as [NX2 (q2 & Es2)]. cbn [fst] in EP. rewrite app_assoc in Es2.
        assert (q2 = []) by (apply blen_0; pose proof (f_equal blen Es2) as Z; rewrite blen_app in Z; lia). subst q2. rewrite app_nil_r in Es2.
        destruct (free_ends_earlier nodes _ _ _ ST P2 Ib) as (nb & Eb & _).
        destruct (free_chain nodes V (S (blen p2)) j2 _ _ _ _ nb (Nat.lt_succ_diag_r _) EL2 Eb) as (ids & seg & C). rewrite <- Es2 in C. eauto. }
    destruct VC as (ids & seg & C). rewrite (vchain_back s any L all_any Hbegin Hend nodes s b ids seg) with (acc := []); [|exact (fi_bos _ _ V)|exact C|pose proof (free_vchain_len _ _ _ _ _ C); lia].
    cbn [bind rev]. rewrite app_nil_r. exists nodes, ids, seg. split; [reflexivity|]. split; [exact ST|].
    pose proof (vchain_chain s L _ _ _ _ _ C [] [] (chain_nil s L)) as X. rewrite !app_nil_r in X. exact X.
  Qed.
End viterbi_free.
