(** The Viterbi search, sampling and n-best lists on the lattice of Unigram. *)
From Verif Require Import Base StrBytes ListFacts AMap Utf8 EncodingModel BpeWordModel BpeWordProofs BpeModel TrieModel TrieProps UnigramModel UnigramSpec UnigramProofs UnigramProofs2.

Section viterbi_proofs.
  Context {W : Type} (A : arith W) (m : unigram W) (Hwf : wf m) (s : str) (Hs : text_ok s).
  Context (ok : W -> Prop) (Hlaws : score_laws A ok).

  Notation place := (list N * (list N * N * W))%type.
  Notation holds := (holds A m s).
  Notation all_to := (all_to A m s).
  Notation chain := (chain s).

  Definition same (n n0 : lnode W) : Prop := ln_id n = ln_id n0 /\ ln_pos n = ln_pos n0 /\ ln_len n = ln_len n0 /\ ln_score n = ln_score n0.
  Lemma same_refl n : same n n.
  Proof. repeat split. Qed.
  Lemma same_trans a b c : same a b -> same b c -> same a c.
  Proof. unfold same. intuition congruence. Qed.

  Definition statics (nodes nodes0 : list (lnode W)) : Prop := Forall2 same nodes nodes0.
  Lemma statics_refl l : statics l l.
  Proof. induction l; constructor; [apply same_refl|assumption]. Qed.
  Lemma statics_trans a b c : statics a b -> statics b c -> statics a c.
  Proof. intros H. revert c. induction H; intros c K; inversion K; subst; constructor; [eapply same_trans; eauto|]. apply IHForall2. assumption. Qed.
  Lemma statics_upd l k f : (forall n, same (f n) n) -> statics (upd l k f) l.
  Proof.
    intros H. revert k. induction l as [|a l IH]; intros [|k]; cbn; try apply statics_refl.
    - constructor; [apply H|apply statics_refl].
    - constructor; [apply same_refl|]. apply IH.
  Qed.
  Lemma statics_nth a b k n : statics a b -> nth_error b k = Some n -> exists n', nth_error a k = Some n' /\ same n' n.
  Proof.
    intros H. revert k. induction H as [|x y a b Hxy H IH]; intros [|k] E; cbn in *; try discriminate; [injection E as <-; eauto|apply IH; exact E].
  Qed.
  Lemma statics_nth' a b k n : statics a b -> nth_error a k = Some n -> exists n', nth_error b k = Some n' /\ same n n'.
  Proof.
    intros H. revert k. induction H as [|x y a b Hxy H IH]; intros [|k] E; cbn in *; try discriminate; [injection E as <-; eauto|apply IH; exact E].
  Qed.

  Lemma statics_length a b : statics a b -> length a = length b.
  Proof. induction 1; cbn; congruence. Qed.

  Definition setn (b : nat) (v : W) (n : lnode W) : lnode W := mkLn (ln_id n) (ln_pos n) (ln_len n) (Some b) v (ln_score n).

  (** *** The best predecessor *)
  Definition is_best (nodes : list (lnode W)) (rs : W) (ends : list nat) (b : nat) (v : W) : Prop :=
    (exists nb, In b ends /\ nth_error nodes b = Some nb /\ v = a_add A (ln_back nb) rs) /\
    forall l nl, In l ends -> nth_error nodes l = Some nl -> a_gtb A (a_add A (ln_back nl) rs) v = false.

  Lemma gtb_irrefl a : ok a -> a_gtb A a a = false.
  Proof.
    intros H. destruct (a_gtb A a a) eqn:E; [|reflexivity]. pose proof (sl_total _ _ Hlaws a a H H E). congruence.
  Qed.

  Lemma vit_best_some nodes rs ends : ok rs -> Forall (fun l => exists nl, nth_error nodes l = Some nl /\ ok (ln_back nl)) ends ->
    forall done b v, is_best nodes rs done b v -> (forall l, In l done -> exists nl, nth_error nodes l = Some nl /\ ok (ln_back nl)) ->
    exists b' v', vit_best A nodes rs ends (Some (b, v)) = Ok (Some (b', v')) /\ is_best nodes rs (done ++ ends) b' v'.
  Proof.
    intros Hr. induction ends as [|l ends IH]; intros F done b v B D; cbn [vit_best].
    - exists b, v. rewrite app_nil_r. auto.
    - inversion F as [|? ? (nl & En & On) F']; subst. rewrite En. cbn [of_option bind].
      assert (D' : forall l0, In l0 (done ++ [l]) -> exists nl, nth_error nodes l0 = Some nl /\ ok (ln_back nl)).
      { intros l0 H. apply in_app_iff in H. destruct H as [H|[<-|[]]]; eauto. }
      assert (OV : ok v).
      { destruct B as [(nb & Ib & Eb & ->) _]. destruct (D _ Ib) as (nb' & Eb' & Ob). rewrite Eb in Eb'. injection Eb' as <-. apply (sl_add _ _ Hlaws); assumption. }
      assert (OS : ok (a_add A (ln_back nl) rs)) by (apply (sl_add _ _ Hlaws); assumption).
      replace (done ++ l :: ends) with ((done ++ [l]) ++ ends) by (rewrite <- app_assoc; reflexivity).
      destruct (a_gtb A (a_add A (ln_back nl) rs) v) eqn:G; apply IH; try assumption.
      + split; [exists nl; rewrite in_app_iff; cbn; auto|]. intros l0 nl0 H E0. apply in_app_iff in H. destruct H as [H|[<-|[]]].
        * apply (sl_trans _ _ Hlaws _ v); auto.
          -- destruct (D _ H) as (nl' & E' & O'). rewrite E0 in E'. injection E' as <-. apply (sl_add _ _ Hlaws); assumption.
          -- destruct B as [_ B]. eapply B; eauto.
          -- apply (sl_total _ _ Hlaws); assumption.
        * rewrite En in E0. injection E0 as <-. apply gtb_irrefl. exact OS.
      + destruct B as [(nb & Ib & Eb & Ev) B]. split; [exists nb; rewrite in_app_iff; auto|]. intros l0 nl0 H E0. apply in_app_iff in H. destruct H as [H|[<-|[]]]; [eapply B; eauto|].
        rewrite En in E0. injection E0 as <-. exact G.
  Qed.

  Lemma vit_best_spec nodes rs ends : ok rs -> ends <> [] -> Forall (fun l => exists nl, nth_error nodes l = Some nl /\ ok (ln_back nl)) ends ->
    exists b v, vit_best A nodes rs ends None = Ok (Some (b, v)) /\ is_best nodes rs ends b v /\ ok v.
  Proof.
    intros Hr NE F. destruct ends as [|l ends]; [congruence|]. inversion F as [|? ? (nl & En & On) F']; subst. cbn [vit_best]. rewrite En. cbn [of_option bind].
    destruct (vit_best_some nodes rs ends Hr F' [l] l (a_add A (ln_back nl) rs)) as (b & v & E & B).
    - split; [exists nl; cbn; auto|]. intros l0 nl0 [<-|[]] E0. rewrite En in E0. injection E0 as <-. apply gtb_irrefl. apply (sl_add _ _ Hlaws); assumption.
    - intros l0 [<-|[]]. eauto.
    - exists b, v. split; [exact E|]. split; [exact B|]. destruct B as [(nb & Ib & Eb & ->) _]. cbn [app] in Ib. rewrite Forall_forall in F. destruct (F _ Ib) as (nb' & Eb' & Ob). rewrite Eb in Eb'. injection Eb' as <-. apply (sl_add _ _ Hlaws); assumption.
  Qed.

  Lemma nth_upd_ne {X} (l : list X) k f i : k <> i -> nth_error (upd l k f) i = nth_error l i.
  Proof. intros N. rewrite nth_error_upd. replace (k =? i) with false by (symmetry; apply Nat.eqb_neq; exact N). reflexivity. Qed.

  Lemma is_best_ext nodes nodes' rs ends b v : (forall l, In l ends -> nth_error nodes' l = nth_error nodes l) -> is_best nodes rs ends b v -> is_best nodes' rs ends b v.
  Proof.
    intros H [(nb & Ib & Eb & Ev) B]. split; [exists nb; rewrite H by exact Ib; auto|]. intros l nl Hl E. rewrite H in E by exact Hl. eauto.
  Qed.

  Lemma vit_pos_spec ends : ends <> [] -> forall begins nodes,
    Forall (fun l => exists nl, nth_error nodes l = Some nl /\ ok (ln_back nl)) ends ->
    Forall (fun r => (exists nr, nth_error nodes r = Some nr /\ ok (ln_score nr)) /\ ~ In r ends) begins ->
    exists nodes', vit_pos A begins ends nodes = Ok (nodes', true) /\ statics nodes' nodes /\
      (forall i, ~ In i begins -> nth_error nodes' i = nth_error nodes i) /\
      (forall i, In i begins -> exists n' b v, nth_error nodes' i = Some n' /\ ln_prev n' = Some b /\ ln_back n' = v /\ ok v /\ is_best nodes (ln_score n') ends b v).
  Proof.
    intros NE. induction begins as [|r begins IH]; intros nodes FE FB; cbn [vit_pos].
    - exists nodes. repeat split; [apply statics_refl|]. intros i [].
    - inversion FB as [|? ? [(nr & En & On) NI] FB']; subst. rewrite En. cbn [of_option bind].
      set (clear := fun n : lnode W => mkLn (ln_id n) (ln_pos n) (ln_len n) None (ln_back n) (ln_score n)).
      set (cleared := upd nodes r clear).
      assert (KE : forall l, In l ends -> nth_error cleared l = nth_error nodes l) by (intros l Hl; apply nth_upd_ne; intros <-; contradiction).
      destruct (vit_best_spec cleared (ln_score nr) ends On NE) as (b & v & EB & B & OV).
      { apply Forall_forall. intros l Hl. rewrite KE by exact Hl. rewrite Forall_forall in FE. apply FE. exact Hl. }
      rewrite EB. cbn [bind]. fold (setn b v). set (nodes1 := upd cleared r (setn b v)).
      assert (S1 : statics nodes1 nodes).
      { eapply statics_trans; [apply statics_upd; intros; repeat split|]. apply statics_upd. intros; repeat split. }
      assert (K1 : forall i, i <> r -> nth_error nodes1 i = nth_error nodes i).
      { intros i N. unfold nodes1, cleared. rewrite !nth_upd_ne by congruence. reflexivity. }
      assert (K1e : forall l, In l ends -> nth_error nodes1 l = nth_error nodes l) by (intros l Hl; apply K1; intros ->; contradiction).
      assert (E1 : nth_error nodes1 r = Some (setn b v nr)).
      { unfold nodes1, cleared. rewrite !nth_error_upd, Nat.eqb_refl, En. reflexivity. }
      destruct (IH nodes1) as (nodes' & E' & S' & K' & B').
      { apply Forall_forall. intros l Hl. rewrite K1e by exact Hl. rewrite Forall_forall in FE. apply FE. exact Hl. }
      { apply Forall_forall. intros r' Hr. rewrite Forall_forall in FB'. destruct (FB' _ Hr) as [(nr' & En' & On') NI']. split; [|exact NI'].
        destruct (statics_nth _ _ _ _ S1 En') as (n2 & E2 & (_ & _ & _ & S2)). exists n2. split; [exact E2|]. rewrite S2. exact On'. }
      exists nodes'. split; [exact E'|]. split; [eapply statics_trans; eauto|]. split.
      + intros i Hi. cbn [In] in Hi. rewrite K' by tauto. apply K1. intros ->. tauto.
      + intros i Hi. destruct (in_dec Nat.eq_dec i begins) as [I|NI'].
        * destruct (B' i I) as (n' & b' & v' & a1 & a2 & a3 & a4 & a5). exists n', b', v'. repeat split; try assumption.
          -- destruct (is_best_ext nodes1 nodes _ _ _ _ (fun l Hl => eq_sym (K1e l Hl)) a5) as [X _]. exact X.
          -- destruct (is_best_ext nodes1 nodes _ _ _ _ (fun l Hl => eq_sym (K1e l Hl)) a5) as [_ X]. exact X.
        * destruct Hi as [<-|Hi]; [|contradiction]. exists (setn b v nr), b, v. rewrite K' by exact NI'. repeat split; auto.
          -- destruct (is_best_ext cleared nodes _ _ _ _ (fun l Hl => eq_sym (KE l Hl)) B) as [X _]. exact X.
          -- destruct (is_best_ext cleared nodes _ _ _ _ (fun l Hl => eq_sym (KE l Hl)) B) as [_ X]. exact X.
  Qed.

  (** *** All positions *)
  Context (la : lattice W) (L : list place) (HH : holds la L) (HA : all_to (blen s) L).
  Context (HokL : forall p it, In (p, it) L -> ok (snd it)).
  (** No position is stuck. *)
  Context (Hbegin : forall p c q, s = p ++ c :: q -> exists it, In (p, it) L).
  Context (Hend : forall p c q, s = p ++ c :: q -> exists p' it, In (p', it) L /\ p ++ [c] = p' ++ fst (fst it)).

  Definition good (nodes : list (lnode W)) (n : lnode W) : Prop :=
    exists b ends, ln_prev n = Some b /\ nth_error (la_end la) (ln_pos n) = Some ends /\ ok (ln_back n) /\ is_best nodes (ln_score n) ends b (ln_back n).

  Record vinv (k : nat) (nodes : list (lnode W)) : Prop := {
    vi_static : statics nodes (la_nodes la);
    vi_bos : exists n, nth_error nodes 0 = Some n /\ ln_prev n = None /\ ln_back n = a_zero A;
    vi_done : forall i n, nth_error nodes (S i) = Some n -> ln_pos n < k -> good nodes n }.

  Lemma node_cases nodes i n : statics nodes (la_nodes la) -> nth_error nodes i = Some n ->
    (i = 0 /\ same n (lnode_new A (u_bos m) 0 0 (a_zero A))) \/ (i = 1 /\ same n (lnode_new A (u_eos m) (blen s) 0 (a_zero A))) \/
    exists j p x id w, i = S (S j) /\ nth_error L j = Some (p, (x, id, w)) /\ same n (lnode_new A id (blen p) (blen x) w).
  Proof.
    intros ST E. destruct (statics_nth' _ _ _ _ ST E) as (n' & E' & S'). rewrite (ho_nodes _ _ _ _ _ HH) in E'. destruct i as [|[|j]]; cbn in E'.
    - injection E' as <-. auto.
    - injection E' as <-. auto.
    - right. right. rewrite nth_error_map in E'. destruct (nth_error L j) as [[p [[x id] w]]|] eqn:EL; [|discriminate]. cbn in E'. injection E' as <-. exists j, p, x, id, w. auto.
  Qed.

  Lemma L_fit j p x id w : nth_error L j = Some (p, (x, id, w)) -> x <> [] /\ exists q, s = p ++ x ++ q.
  Proof. intros E. pose proof (ho_fit _ _ _ _ _ HH) as F. rewrite Forall_forall in F. apply (F _ (nth_error_In _ _ E)). Qed.

  Lemma node_exists nodes i : statics nodes (la_nodes la) -> i < S (S (length L)) -> exists n, nth_error nodes i = Some n.
  Proof.
    intros ST LI. destruct (nth_error nodes i) as [n|] eqn:E; [eauto|]. apply nth_error_None in E. apply statics_length in ST. rewrite ST, (ho_nodes _ _ _ _ _ HH) in E. cbn in E. rewrite map_length in E. lia.
  Qed.

  (** Nodes that end at [blen p] are the first one or start earlier. *)
  Lemma ends_earlier nodes k ends l : statics nodes (la_nodes la) -> nth_error (la_end la) k = Some ends -> In l ends ->
    exists n, nth_error nodes l = Some n /\ (l = 0 \/ (exists j, l = S j) /\ ln_pos n < k).
  Proof.
    intros ST E I. apply (ho_end _ _ _ _ _ HH _ _ l E) in I. destruct I as [[-> _]|(j & p & [[x id] w] & -> & EL & EP)].
    - destruct (node_exists nodes 0 ST ltac:(lia)) as (n & En). eauto.
    - assert (j < length L) by (apply nth_error_Some; congruence). destruct (node_exists nodes (S (S j)) ST ltac:(lia)) as (n & En). exists n. split; [exact En|]. right. split; [eauto|].
      destruct (node_cases _ _ _ ST En) as [[X _]|[[X _]|(j' & p' & x' & id' & w' & X & EL' & (_ & SP & _))]]; try lia. injection X as <-. rewrite EL in EL'. injection EL' as <- <- <- <-.
      rewrite SP. cbn. destruct (L_fit _ _ _ _ _ EL) as [NX _]. pose proof (blen_app_pos p x NX). cbn [fst] in EP. lia.
  Qed.

  Lemma vit_step p rest nodes : s = p ++ rest -> vinv (blen p) nodes ->
    exists begins ends nodes', nth_error (la_begin la) (blen p) = Some begins /\ nth_error (la_end la) (blen p) = Some ends /\ is_nil begins = false /\
      vit_pos A begins ends nodes = Ok (nodes', true) /\ vinv (S (blen p)) nodes'.
  Proof.
    intros Es I. pose proof (vi_static _ _ I) as ST.
    assert (LP : blen p <= blen s) by (rewrite Es, blen_app; lia).
    destruct (nth_error (la_begin la) (blen p)) as [begins|] eqn:EB; [|apply nth_error_None in EB; rewrite (ho_lenb _ _ _ _ _ HH) in EB; lia].
    destruct (nth_error (la_end la) (blen p)) as [ends|] eqn:EE; [|apply nth_error_None in EE; rewrite (ho_lene _ _ _ _ _ HH) in EE; lia].
    assert (NB : begins <> []).
    { intros ->. destruct rest as [|c q].
      - apply (proj2 (ho_begin _ _ _ _ _ HH _ _ 1 EB)). left. rewrite app_nil_r in Es. subst p. auto.
      - destruct (Hbegin _ _ _ Es) as (it & Hin). apply In_nth_error in Hin. destruct Hin as (j & Ej). apply (proj2 (ho_begin _ _ _ _ _ HH _ _ (S (S j)) EB)). right. eauto 8. }
    assert (NE : ends <> []).
    { intros ->. destruct (exists_last_or_nil p) as [->|(p0 & c & ->)].
      - apply (proj2 (ho_end _ _ _ _ _ HH _ _ 0 EE)). left. auto.
      - rewrite <- app_assoc in Es. destruct (Hend _ _ _ Es) as (p' & it & Hin & EP). apply In_nth_error in Hin. destruct Hin as (j & Ej).
        apply (proj2 (ho_end _ _ _ _ _ HH _ _ (S (S j)) EE)). right. exists j, p', it. rewrite EP. auto. }
    assert (OKE : Forall (fun l => exists nl, nth_error nodes l = Some nl /\ ok (ln_back nl)) ends).
    { apply Forall_forall. intros l Hl. destruct (ends_earlier nodes _ _ _ ST EE Hl) as (n & En & [->|[(j & ->) LT]]).
      - exists n. split; [exact En|]. destruct (vi_bos _ _ I) as (n1 & E1 & _ & B1). rewrite En in E1. injection E1 as ->. rewrite B1. apply (sl_zero _ _ Hlaws).
      - exists n. split; [exact En|]. destruct (vi_done _ _ I _ _ En LT) as (b & e & _ & _ & O & _). exact O. }
    assert (POS : forall r, In r begins -> exists j nr, r = S j /\ nth_error nodes r = Some nr /\ ln_pos nr = blen p /\ ok (ln_score nr)).
    { intros r Hr. apply (ho_begin _ _ _ _ _ HH _ _ r EB) in Hr. destruct Hr as [[-> EP]|(j & p' & [[x id] w] & -> & EL & EP)].
      - destruct (node_exists nodes 1 ST ltac:(lia)) as (n & En). exists 0, n. split; [reflexivity|]. split; [exact En|].
        destruct (node_cases _ _ _ ST En) as [[X _]|[[_ (_ & SP & _ & SS)]|(j' & p' & x' & id' & w' & X & _)]]; try lia. rewrite SP, SS. cbn. split; [auto|]. apply (sl_zero _ _ Hlaws).
      - assert (j < length L) by (apply nth_error_Some; congruence). destruct (node_exists nodes (S (S j)) ST ltac:(lia)) as (n & En). exists (S j), n. split; [reflexivity|]. split; [exact En|].
        destruct (node_cases _ _ _ ST En) as [[X _]|[[X _]|(j' & p2 & x' & id' & w' & X & EL' & (_ & SP & _ & SS))]]; try lia. injection X as <-. rewrite EL in EL'. injection EL' as <- <- <- <-.
        rewrite SP, SS. cbn. split; [auto|]. apply (HokL p' (x, id, w)). eapply nth_error_In; eauto. }
    destruct (vit_pos_spec ends NE begins nodes OKE) as (nodes' & EV & S' & K' & B').
    { apply Forall_forall. intros r Hr. destruct (POS r Hr) as (j & nr & -> & En & EP & O). split; [eauto|]. intros Hi. destruct (ends_earlier nodes _ _ _ ST EE Hi) as (n & En' & [X|[_ X]]); [lia|].
      rewrite En in En'. injection En' as <-. lia. }
    exists begins, ends, nodes'. repeat split; try assumption.
    { destruct begins; [congruence|reflexivity]. }
    { eapply statics_trans; eauto. }
    { destruct (vi_bos _ _ I) as (n0 & E0 & X). exists n0. split; [|exact X]. rewrite K'; [exact E0|]. intros Hi. destruct (POS 0 Hi) as (j & _ & X' & _). discriminate. }
    intros i n En LT.
    assert (FRAME : forall ends' k', k' <= blen p -> nth_error (la_end la) k' = Some ends' -> forall l, In l ends' -> nth_error nodes' l = nth_error nodes l).
    { intros ends' k' LK EE' l Hl. apply K'. intros Hi. destruct (POS l Hi) as (j & nr & -> & En' & EP & _). destruct (ends_earlier nodes _ _ _ ST EE' Hl) as (n2 & En2 & [X|[_ X]]); [lia|].
      rewrite En' in En2. injection En2 as <-. lia. }
    destruct (in_dec Nat.eq_dec (S i) begins) as [Hi|Hi].
    - destruct (B' _ Hi) as (n' & b & v & E1 & E2 & E3 & E4 & E5). rewrite En in E1. injection E1 as <-.
      destruct (POS _ Hi) as (j & nr & _ & Er & EP & _). destruct (statics_nth _ _ _ _ S' Er) as (n2 & En2 & (_ & SP & _)). rewrite En in En2. injection En2 as <-.
      exists b, ends. split; [exact E2|]. rewrite SP, EP, E3. split; [exact EE|]. split; [exact E4|]. apply (is_best_ext nodes); [|exact E5]. intros l Hl. eapply FRAME; [|exact EE|exact Hl]. lia.
    - rewrite K' in En by exact Hi. assert (LT' : ln_pos n < blen p).
      { destruct (Nat.eq_dec (ln_pos n) (blen p)) as [X|X]; [exfalso|lia]. apply Hi. apply (ho_begin _ _ _ _ _ HH _ _ _ EB).
        destruct (node_cases _ _ _ ST En) as [[Y _]|[[Y (_ & SP & _)]|(j' & p2 & x' & id' & w' & Y & EL' & (_ & SP & _))]]; [lia| |].
        - left. rewrite SP in X. cbn in X. auto.
        - right. rewrite SP in X. cbn in X. exists j', p2, (x', id', w'). auto. }
      destruct (vi_done _ _ I _ _ En LT') as (b & e & X1 & X2 & X3 & X4). exists b, e. repeat split; try assumption.
      + apply (is_best_ext nodes nodes' _ _ _ _ (fun l Hl => FRAME e (ln_pos n) (Nat.lt_le_incl _ _ LT') X2 l Hl)) in X4. apply X4.
      + apply (is_best_ext nodes nodes' _ _ _ _ (fun l Hl => FRAME e (ln_pos n) (Nat.lt_le_incl _ _ LT') X2 l Hl)) in X4. apply X4.
  Qed.

  Lemma node_boundary nodes i n : statics nodes (la_nodes la) -> nth_error nodes i = Some n -> exists p q, s = p ++ q /\ ln_pos n = blen p.
  Proof.
    intros ST E. destruct (node_cases _ _ _ ST E) as [[_ (_ & SP & _)]|[[_ (_ & SP & _)]|(j & p & x & id & w & _ & EL & (_ & SP & _))]]; rewrite SP; cbn.
    - exists [], s. auto.
    - exists s, []. rewrite app_nil_r. auto.
    - destruct (L_fit _ _ _ _ _ EL) as (_ & q & Es). exists p, (x ++ q). auto.
  Qed.

  Lemma vit_loop_done rest : forall p nodes, s = p ++ rest -> vinv (blen p) nodes -> exists nodes', vit_loop A la rest (blen p) nodes = Ok (nodes', true) /\ vinv (S (blen s)) nodes'.
  Proof.
    induction rest as [|c rest IH]; intros p nodes Es I; cbn [vit_loop]; destruct (vit_step _ _ _ Es I) as (begins & ends & nodes' & -> & -> & NB & EV & I'); cbn [of_option bind]; rewrite NB, EV; cbn [bind].
    - exists nodes'. split; [reflexivity|]. rewrite app_nil_r in Es. subst p. exact I'.
    - pose proof (IH (p ++ [c]) nodes') as IH'. rewrite blen_app in IH'. cbn [blen] in IH'. rewrite Nat.add_0_r in IH'. apply IH'; [rewrite <- app_assoc; exact Es|].
      destruct I' as [ST B D]. constructor; [exact ST|exact B|]. intros i n En LT. apply (D _ _ En). destruct (node_boundary _ _ _ ST En) as (p' & q' & Es' & EP). rewrite EP in *.
      destruct (Nat.lt_ge_cases (blen p') (S (blen p))) as [X|X]; [exact X|exfalso]. rewrite Es in Es'. destruct (blen_prefix_cmp _ _ _ _ Es' ltac:(lia)) as (y & -> & Ey).
      destruct y as [|d y]; [rewrite app_nil_r in X; lia|]. cbn in Ey. injection Ey as <- _. rewrite blen_app in LT. cbn in LT. lia.
  Qed.

  (** *** Reading the path *)
  Inductive vchain (nodes : list (lnode W)) : str -> nat -> list nat -> list (str * N * W) -> Prop :=
  | vc_nil : vchain nodes [] 0 [] []
  | vc_step : forall j p x id w n b ids seg, nth_error L j = Some (p, (x, id, w)) -> nth_error nodes (S (S j)) = Some n -> ln_prev n = Some b ->
      vchain nodes p b ids seg -> vchain nodes (p ++ x) (S (S j)) (ids ++ [S (S j)]) (seg ++ [(x, id, w)]).

  Lemma vchain_len nodes e i ids seg : vchain nodes e i ids seg -> length ids <= blen e.
  Proof.
    induction 1 as [|j p x id w n b ids seg EL En EP C IH]; [reflexivity|]. rewrite app_length. cbn. destruct (L_fit _ _ _ _ _ EL) as [NX _]. pose proof (blen_app_pos p x NX). lia.
  Qed.

  Lemma vchain_back nodes e i ids seg : (exists n, nth_error nodes 0 = Some n /\ ln_prev n = None) -> vchain nodes e i ids seg -> forall fuel acc, length ids < fuel -> vit_back fuel nodes i acc = Ok (ids ++ rev acc).
  Proof.
    intros (n0 & E0 & P0). induction 1 as [|j p x id w n b ids seg EL En EP C IH]; intros fuel acc LF; (destruct fuel as [|fuel]; [lia|]); cbn [vit_back].
    - rewrite E0. cbn [of_option bind]. rewrite P0. reflexivity.
    - rewrite En. cbn [of_option bind]. rewrite EP. rewrite app_length in LF. cbn in LF. rewrite IH by lia. rewrite rev_app_distr. cbn. rewrite <- app_assoc. reflexivity.
  Qed.

  Lemma vchain_chain nodes e i ids seg : vchain nodes e i ids seg -> forall path seg2, chain L e path seg2 -> chain L [] (ids ++ path) (seg ++ seg2).
  Proof.
    induction 1 as [|j p x id w n b ids seg EL En EP C IH]; intros path seg2 H; [exact H|]. rewrite <- !app_assoc. cbn. apply IH. econstructor; eauto.
  Qed.

  Lemma total_snoc seg it : total A (seg ++ [it]) = a_add A (snd it) (total A seg).
  Proof. unfold total. rewrite fold_left_app. reflexivity. Qed.

  Lemma vchain_exists nodes (V : vinv (S (blen s)) nodes) : forall fuel j p x id w n, blen p < fuel -> nth_error L j = Some (p, (x, id, w)) -> nth_error nodes (S (S j)) = Some n ->
    exists ids seg, vchain nodes (p ++ x) (S (S j)) ids seg /\ total A seg = ln_back n.
  Proof.
    induction fuel as [|fuel IH]; intros j p x id w n LF EL En; [lia|].
    pose proof (vi_static _ _ V) as ST. destruct (L_fit _ _ _ _ _ EL) as [NX (q & Es)].
    destruct (node_cases _ _ _ ST En) as [[Y _]|[[Y (_ & SP & _)]|(j' & p2 & x' & id' & w' & Y & EL' & (_ & SP & _ & SS))]]; try lia. injection Y as <-. rewrite EL in EL'. injection EL' as <- <- <- <-. cbn in SP, SS.
    destruct (vi_done _ _ V _ _ En) as (b & ends & P1 & P2 & P3 & (nb & Ib & Eb & EV) & _). { rewrite SP, Es, blen_app. lia. }
    rewrite SP in P2. pose proof Ib as Ib'. apply (ho_end _ _ _ _ _ HH _ _ b P2) in Ib. destruct Ib as [[-> EP]|(j2 & p2 & [[x2 id2] w2] & -> & EL2 & EP)].
    - assert (p = []) by (apply blen_0; exact EP). subst p. exists ([] ++ [S (S j)]), ([] ++ [(x, id, w)]). split; [econstructor; eauto; constructor|].
      rewrite total_snoc. cbn. destruct (vi_bos _ _ V) as (n0 & E0 & _ & B0). rewrite Eb in E0. injection E0 as <-. rewrite EV, B0, SS. apply (sl_comm _ _ Hlaws); [|apply (sl_zero _ _ Hlaws)]. apply (HokL [] (x, id, w)). eapply nth_error_In; eauto.
    - cbn [fst] in EP. destruct (L_fit _ _ _ _ _ EL2) as [NX2 (q2 & Es2)]. pose proof (blen_app_pos p2 x2 NX2).
      assert (EPP : p = p2 ++ x2) by (rewrite Es in Es2; rewrite (app_assoc p2) in Es2; apply (proj1 (blen_split_eq _ _ _ _ Es2 EP))).
      destruct (IH j2 p2 x2 id2 w2 nb) as (ids & seg & C & T); [lia|exact EL2|exact Eb|]. rewrite <- EPP in C.
      exists (ids ++ [S (S j)]), (seg ++ [(x, id, w)]). split; [econstructor; eauto|]. rewrite total_snoc. cbn [snd]. rewrite T, EV, SS. apply (sl_comm _ _ Hlaws).
      + apply (HokL p (x, id, w)). eapply nth_error_In; eauto.
      + destruct (ends_earlier nodes _ _ _ ST P2 Ib') as (n2 & En2 & [X|[_ X]]); [lia|]. rewrite Eb in En2. injection En2 as <-. destruct (vi_done _ _ V _ _ Eb) as (b' & e' & _ & _ & O & _); [|exact O]. rewrite Es, blen_app. lia.
  Qed.

  (** No segmentation of a prefix is better than the node of its last item. *)
  Lemma vit_bound nodes (V : vinv (S (blen s)) nodes) : forall seg it q, Forall (item_ok A m) (seg ++ [it]) -> s = concat (texts (seg ++ [it])) ++ q ->
    exists j n, nth_error L j = Some (concat (texts seg), it) /\ nth_error nodes (S (S j)) = Some n /\ ok (ln_back n) /\ ok (total A (seg ++ [it])) /\ a_gtb A (total A (seg ++ [it])) (ln_back n) = false.
  Proof.
    intros seg. induction seg as [|it' seg IH] using rev_ind; intros it q F Es.
    - cbn in F, Es. pose proof (Forall_inv F) as Hit. rewrite app_nil_r in Es. destruct it as [[x id] w]. cbn in Es.
      assert (Hin : In ([], (x, id, w)) L).
      { apply HA. split; [|split; [exact Hit|exists q; exact Es]]. cbn. rewrite Es, blen_app. assert (x <> []) by (destruct Hit as [[? _]|(c & -> & _)]; [assumption|discriminate]). pose proof (blen_app_pos [] x ltac:(assumption)). cbn in *. lia. }
      apply In_nth_error in Hin. destruct Hin as (j & Ej). assert (j < length L) by (apply nth_error_Some; congruence). destruct (node_exists nodes (S (S j)) (vi_static _ _ V) ltac:(lia)) as (n & En).
      destruct (node_cases _ _ _ (vi_static _ _ V) En) as [[Y _]|[[Y (_ & SP & _)]|(j' & p2 & x' & id' & w' & Y & EL' & (_ & SP & _ & SS))]]; try lia. injection Y as <-. rewrite Ej in EL'. injection EL' as <- <- <- <-. cbn in SP, SS.
      destruct (vi_done _ _ V _ _ En) as (b & ends & P1 & P2 & P3 & (nb & Ib & Eb & EV) & BB); [lia|].
      exists j, n. cbn [texts map concat]. split; [exact Ej|]. split; [exact En|]. split; [exact P3|].
      assert (OW : ok w) by (apply (HokL [] (x, id, w)); eapply nth_error_In; eauto). pose proof (sl_zero _ _ Hlaws) as O0.
      assert (TT : total A ([] ++ [(x, id, w)]) = a_add A (a_zero A) w) by (rewrite total_snoc; apply (sl_comm _ _ Hlaws); assumption). rewrite TT.
      split; [apply (sl_add _ _ Hlaws); assumption|]. destruct (vi_bos _ _ V) as (n0 & E0 & _ & B0). rewrite SP in P2. pose proof (BB 0 n0 (proj2 (ho_end _ _ _ _ _ HH _ _ 0 P2) (or_introl (conj eq_refl eq_refl))) E0) as B1. rewrite B0, SS in B1. exact B1.
    - apply Forall_app in F. destruct F as [F1 F2]. pose proof (Forall_inv F2) as Hit. set (seg1 := seg ++ [it']) in *.
      assert (EC : concat (texts (seg1 ++ [it])) = concat (texts seg1) ++ fst (fst it)) by (unfold texts; rewrite map_app, concat_app; cbn; rewrite app_nil_r; reflexivity).
      rewrite EC, <- app_assoc in Es. destruct (IH it' (fst (fst it) ++ q) F1 Es) as (j1 & n1 & E1 & N1 & O1 & OT1 & B1). fold seg1 in OT1, B1.
      destruct it as [[x id] w]. cbn [fst] in *.
      assert (NX : x <> []) by (destruct Hit as [[? _]|(c & -> & _)]; [assumption|discriminate]).
      assert (Hin : In (concat (texts seg1), (x, id, w)) L).
      { apply HA. split; [|split; [exact Hit|exists q; exact Es]]. pose proof (f_equal blen Es) as Z. rewrite !blen_app in Z. pose proof (blen_app_pos [] x NX) as Y. cbn [blen app] in Y. lia. }
      apply In_nth_error in Hin. destruct Hin as (j & Ej). assert (j < length L) by (apply nth_error_Some; congruence). destruct (node_exists nodes (S (S j)) (vi_static _ _ V) ltac:(lia)) as (n & En).
      destruct (node_cases _ _ _ (vi_static _ _ V) En) as [[Y _]|[[Y (_ & SP & _)]|(j' & p2 & x' & id' & w' & Y & EL' & (_ & SP & _ & SS))]]; try lia. injection Y as <-. rewrite Ej in EL'. injection EL' as <- <- <- <-. cbn in SP, SS.
      destruct (vi_done _ _ V _ _ En) as (b & ends & P1 & P2 & P3 & _ & BB). { rewrite SP. pose proof (f_equal blen Es) as Z. rewrite !blen_app in Z. lia. }
      exists j, n. split; [exact Ej|]. split; [exact En|]. split; [exact P3|].
      assert (OW : ok w) by (apply (HokL (concat (texts seg1)) (x, id, w)); eapply nth_error_In; eauto).
      rewrite total_snoc. cbn [snd]. split; [apply (sl_add _ _ Hlaws); assumption|].
      rewrite SP in P2. assert (II : In (S (S j1)) ends).
      { apply (ho_end _ _ _ _ _ HH _ _ _ P2). right. exists j1, (concat (texts seg)), it'. split; [reflexivity|]. split; [exact E1|]. unfold seg1, texts. rewrite map_app, concat_app. cbn. rewrite app_nil_r. reflexivity. }
      pose proof (BB _ _ II N1) as B2. rewrite SS in B2.
      apply (sl_trans _ _ Hlaws _ (a_add A w (ln_back n1))); try assumption; try (apply (sl_add _ _ Hlaws); assumption).
      + apply (sl_mono _ _ Hlaws); assumption.
      + rewrite (sl_comm _ _ Hlaws w) by assumption. exact B2.
  Qed.

  Lemma vinv_init : vinv 0 (la_nodes la).
  Proof.
    constructor; [apply statics_refl| |intros; lia]. rewrite (ho_nodes _ _ _ _ _ HH). eexists. split; [reflexivity|]. split; reflexivity.
  Qed.

  Theorem viterbi_table : exists nodes path seg, viterbi A la = Ok (nodes, path) /\ vinv (S (blen s)) nodes /\ chain L [] path seg /\ best A m s seg.
  Proof.
    unfold viterbi. rewrite (ho_s _ _ _ _ _ HH). destruct (vit_loop_done s [] (la_nodes la) eq_refl vinv_init) as (nodes & E & V). cbn [blen] in E. rewrite E. cbn [bind].
    pose proof (vi_static _ _ V) as ST.
    destruct (ho_eos _ _ _ _ _ HH) as (l & El). unfold eos_node. rewrite (ho_s _ _ _ _ _ HH), El. cbn [of_option bind hd_error].
    destruct (node_exists nodes 1 ST ltac:(lia)) as (n & En). rewrite En. cbn [of_option bind].
    destruct (node_cases _ _ _ ST En) as [[Y _]|[[_ (_ & SP & _ & SS)]|(j' & p2 & x' & id' & w' & Y & _)]]; try lia. cbn in SP, SS.
    destruct (vi_done _ _ V _ _ En) as (b & ends & P1 & P2 & P3 & (nb & Ib & Eb & EV) & BB); [lia|]. rewrite P1. rewrite SP in P2. rewrite SS in EV, BB.
    assert (OB : ok (ln_back nb)).
    { destruct (ends_earlier nodes _ _ _ ST P2 Ib) as (n2 & En2 & [X|[(j & ->) X]]); rewrite Eb in En2; injection En2 as <-.
      - subst b. destruct (vi_bos _ _ V) as (n0 & E0 & _ & B0). rewrite Eb in E0. injection E0 as <-. rewrite B0. apply (sl_zero _ _ Hlaws).
      - destruct (vi_done _ _ V _ _ Eb) as (b' & e' & _ & _ & O & _); [lia|exact O]. }
    assert (VC : exists ids seg, vchain nodes s b ids seg /\ total A seg = ln_back nb).
    { pose proof Ib as Ib'. apply (ho_end _ _ _ _ _ HH _ _ b P2) in Ib'. destruct Ib' as [[-> EP]|(j2 & p2 & [[x2 id2] w2] & -> & EL2 & EP)].
      - pose proof (blen_0 _ EP) as Z. exists [], []. split; [rewrite Z; constructor|]. destruct (vi_bos _ _ V) as (n0 & E0 & _ & B0). rewrite Eb in E0. injection E0 as <-. rewrite B0. reflexivity.
      - destruct (L_fit _ _ _ _ _ EL2) as [NX2 (q2 & Es2)]. cbn [fst] in EP. rewrite app_assoc in Es2.
        assert (q2 = []) by (apply blen_0; pose proof (f_equal blen Es2) as Z; rewrite blen_app in Z; lia). subst q2. rewrite app_nil_r in Es2.
        destruct (vchain_exists nodes V (S (blen p2)) j2 _ _ _ _ nb (Nat.lt_succ_diag_r _) EL2 Eb) as (ids & seg & C & T). rewrite <- Es2 in C. eauto. }
    destruct VC as (ids & seg & C & T). rewrite (vchain_back nodes s b ids seg) with (acc := []); [|destruct (vi_bos _ _ V) as (n0 & E0 & X & _); eauto|exact C|pose proof (vchain_len _ _ _ _ _ C); lia].
    cbn [bind rev]. rewrite app_nil_r. exists nodes, ids, seg. split; [reflexivity|]. split; [exact V|].
    assert (CH : chain L [] ids seg). { pose proof (vchain_chain _ _ _ _ _ C [] [] (chain_nil s L)) as X. rewrite !app_nil_r in X. exact X. }
    split; [exact CH|]. split; [apply (chain_segmentation A m s L ids seg HA CH)|].
    intros seg' [F' Ec']. rewrite T. destruct (exists_last_or_nil seg') as [->|(seg1 & it & ->)].
    - cbn in Ec'. subst s. rewrite <- (sl_zero_order _ _ Hlaws) by (try assumption; apply (sl_zero _ _ Hlaws)). rewrite <- EV. change (total A []) with (a_zero A).
      destruct (vi_bos _ _ V) as (n0 & E0 & _ & B0). rewrite <- B0 at 1. apply (BB 0 n0); [|exact E0]. apply (ho_end _ _ _ _ _ HH _ _ 0 P2). left. auto.
    - destruct (vit_bound nodes V seg1 it [] F') as (j & n1 & EL & N1 & O1 & OT & B1); [rewrite app_nil_r; auto|].
      apply (sl_trans _ _ Hlaws _ (ln_back n1)); try assumption. rewrite <- (sl_zero_order _ _ Hlaws) by assumption. rewrite <- EV. apply (BB (S (S j))); [|exact N1].
      apply (ho_end _ _ _ _ _ HH _ _ _ P2). right. exists j, (concat (texts seg1)), it. split; [reflexivity|]. split; [exact EL|]. rewrite <- Ec'. unfold texts. rewrite map_app, concat_app. cbn. rewrite app_nil_r. reflexivity.
  Qed.

  Theorem viterbi_best : exists nodes path seg, viterbi A la = Ok (nodes, path) /\ chain L [] path seg /\ best A m s seg.
  Proof. destruct viterbi_table as (nodes & path & seg & E & _ & C & B). exists nodes, path, seg. auto. Qed.
End viterbi_proofs.
