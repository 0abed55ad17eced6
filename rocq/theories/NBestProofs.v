(** The n best segmentations: each once, all of them if there are fewer than asked. *)
From Coq Require Import Permutation Sorted.
From Verif Require Import Base StrBytes ListFacts AMap Utf8 EncodingModel BpeWordModel BpeWordProofs BpeModel TrieModel TrieProps UnigramModel UnigramSpec UnigramProofs UnigramProofs2 UnigramProofs3 UnigramProofs4 NBestSpec.

(** ** Suffixes *)
Section suffixes.
  Context {T : Type}.
  Definition suffix (a b : list T) : Prop := exists x, b = x ++ a.
  Definition apart (a b : list T) : Prop := ~ suffix a b /\ ~ suffix b a.
  Lemma suffix_refl a : suffix a a.
  Proof. exists []. reflexivity. Qed.
  Lemma suffix_trans a b c : suffix a b -> suffix b c -> suffix a c.
  Proof. intros (x & ->) (y & ->). exists (y ++ x). apply app_assoc. Qed.
  Lemma suffix_cons x a : suffix a (x :: a).
  Proof. exists [x]. reflexivity. Qed.
  Lemma apart_sym a b : apart a b -> apart b a.
  Proof. unfold apart. tauto. Qed.

  Lemma apart_cons x a b : apart a b -> apart (x :: a) b.
  Proof.
    intros [H1 H2]. split.
    - intros H. apply H1. eapply suffix_trans; [apply suffix_cons|exact H].
    - intros (y & E). destruct y as [|z y]; cbn in E.
      + apply H1. exists [x]. cbn. congruence.
      + injection E as _ E. apply H2. exists y. exact E.
  Qed.
  Lemma apart_heads x y a : x <> y -> apart (x :: a) (y :: a).
  Proof.
    assert (G : forall x y, x <> y -> ~ suffix (x :: a) (y :: a)).
    { intros u v N (z & E). destruct z as [|z0 z]; cbn in E; [congruence|]. injection E as _ E. apply (f_equal (@length T)) in E. rewrite app_length in E. cbn in E. lia. }
    intros N. split; apply G; congruence.
  Qed.

  Definition antichain (l : list (list T)) : Prop := ForallOrdPairs apart l.
  Lemma antichain_perm l l' : Permutation l l' -> antichain l -> antichain l'.
  Proof.
    induction 1 as [|x l l' P IH|x y l|l l1 l2 P1 IH1 P2 IH2]; intros H; auto.
    - inversion H as [|? ? F H']; subst. constructor; [|apply IH; exact H']. eapply Permutation_Forall; eauto.
    - inversion H as [|? ? F H']; subst. inversion H' as [|? ? F' H'']; subst. inversion F as [|? ? Fx Fl]; subst. constructor; [constructor; [apply apart_sym; exact Fx|exact F']|]. constructor; assumption.
  Qed.
  Lemma antichain_nodup l : antichain l -> NoDup l.
  Proof.
    induction 1 as [|x l F H IH]; constructor; [|exact IH]. intros I. rewrite Forall_forall in F. destruct (F _ I) as [N _]. apply N, suffix_refl.
  Qed.
  Lemma antichain_app_l l l' : antichain (l ++ l') -> antichain l.
  Proof.
    induction l as [|x l IH]; intros H; [constructor|]. cbn in H. inversion H as [|? ? F H']; subst. apply Forall_app in F. constructor; [tauto|]. apply IH. exact H'.
  Qed.
  Lemma antichain_app_r l l' : antichain (l ++ l') -> antichain l'.
  Proof. induction l as [|x l IH]; intros H; [exact H|]. cbn in H. inversion H; subst. auto. Qed.

  (** Replacing one list by extensions of it. *)
  Lemma antichain_extend a l heads : NoDup heads -> antichain (a :: l) -> antichain (map (fun h => h :: a) heads ++ l).
  Proof.
    intros ND H. inversion H as [|? ? F H']; subst. induction ND as [|h heads NI ND IH]; [exact H'|]. cbn. constructor; [|exact IH].
    apply Forall_app. split.
    - apply Forall_map. apply Forall_forall. intros k Hk. apply apart_heads. congruence.
    - eapply Forall_impl; [|exact F]. intros b. apply apart_cons.
  Qed.
End suffixes.

(** ** Weights that bound the number of steps *)
Definition steps (k : nat) : nat := match k with 0 => 2 | S k' => 3 * 2 ^ k' end.
Lemma steps_sum k : list_sum (map steps (seq 0 (S k))) = steps (S k) - 1.
Proof.
  induction k as [|k IH]; [reflexivity|]. rewrite seq_S, map_app, list_sum_app, IH. cbn [map list_sum fold_right Nat.add steps]. pose proof (Nat.pow_nonzero 2 k). cbn [Nat.pow]. lia.
Qed.
Lemma steps_pos k : 2 <= steps k.
Proof. destruct k; cbn; [lia|]. pose proof (Nat.pow_nonzero 2 k). lia. Qed.
Lemma list_sum_perm l l' : Permutation l l' -> list_sum l = list_sum l'.
Proof. unfold list_sum. induction 1; cbn; lia. Qed.
Lemma steps_bound ks k : NoDup ks -> Forall (fun j => j < S k) ks -> list_sum (map steps ks) < steps (S k).
Proof.
  intros ND F. assert (X : exists rest, Permutation (seq 0 (S k)) (ks ++ rest)).
  { assert (I : incl ks (seq 0 (S k))) by (intros j Hj; rewrite Forall_forall in F; apply in_seq; specialize (F j Hj); lia).
    clear F. revert I. generalize (seq 0 (S k)) as l. induction ND as [|x ks NI ND IH]; intros l I.
    - exists l. reflexivity.
    - destruct (in_split x l) as (l1 & l2 & ->); [apply I; left; reflexivity|].
      destruct (IH (l1 ++ l2)) as (rest & P).
      + intros y Hy. assert (Z : In y (l1 ++ x :: l2)) by (apply I; right; exact Hy). rewrite in_app_iff in *. cbn in Z. destruct Z as [Z|[<-|Z]]; auto. contradiction.
      + exists rest. rewrite <- Permutation_middle, P. reflexivity. }
  destruct X as (rest & P). apply (Permutation_map steps) in P. apply list_sum_perm in P. rewrite map_app, list_sum_app, steps_sum in P. pose proof (steps_pos (S k)). lia.
Qed.

Section nbest_proofs.
  Context {W : Type} (A : arith W) (m : unigram W) (Hwf : wf m) (s : str) (Hs : text_ok s).
  Notation place := (list N * (list N * N * W))%type.
  Notation holds := (holds A m s).
  Notation all_to := (all_to A m s).
  Notation chain := (chain s).
  Context (la : lattice W) (L : list place) (HH : holds la L) (HA : all_to (blen s) L) (NL : NoDup L).

  Lemma fit j p x id w : nth_error L j = Some (p, (x, id, w)) -> x <> [] /\ exists q, s = p ++ x ++ q.
  Proof. exact (L_fit A m s la L HH j p x id w). Qed.

  Lemma item_fun x id w id' w' : item_ok A m (x, id, w) -> item_ok A m (x, id', w') -> id = id' /\ w = w'.
  Proof.
    intros [[_ H]|(c & -> & N & U & ->)] [[_ H']|(c' & E & N' & U' & ->)].
    - eapply last_entry_fun; eauto.
    - subst x. apply last_entry_in in H. tauto.
    - apply last_entry_in in H'. tauto.
    - rewrite U in U'. injection U' as <-. auto.
  Qed.
  Lemma place_fun j j' e : nth_error L j = Some e -> nth_error L j' = Some e -> j = j'.
  Proof. intros E E'. rewrite NoDup_nth_error in NL. apply NL; [apply nth_error_Some; congruence|congruence]. Qed.
  Lemma place_text j j' p x id w id' w' : nth_error L j = Some (p, (x, id, w)) -> nth_error L j' = Some (p, (x, id', w')) -> j = j'.
  Proof.
    intros E E'. pose proof (nth_error_In _ _ E) as I. pose proof (nth_error_In _ _ E') as I'. apply HA in I, I'. destruct (item_fun x id w id' w') as [-> ->]; [tauto|tauto|]. eapply place_fun; eauto.
  Qed.

  (** ** Chains *)
  Lemma chain_low p ids seg : chain L p ids seg -> Forall (fun i => 2 <= i) ids.
  Proof. induction 1; constructor; [lia|assumption]. Qed.
  Lemma chain_fun p ids seg : chain L p ids seg -> forall p' seg', chain L p' ids seg' -> seg = seg'.
  Proof. clear - L.
    induction 1 as [|j p x id w path seg E C IH]; intros p' seg' H; inversion H as [|j' p0 x' id' w' path' seg0 E' C']; subst; [reflexivity|]. rewrite E in E'. injection E' as <- <- <- <-. f_equal. eapply IH. eassumption.
  Qed.
  Lemma chain_inj p ids seg : chain L p ids seg -> forall ids', chain L p ids' seg -> ids = ids'.
  Proof. clear - NL.
    induction 1 as [|j p x id w path seg E C IH]; intros ids' H; inversion H; subst; [reflexivity|]. f_equal; [f_equal; f_equal; eapply place_fun; eassumption|]. apply IH. assumption.
  Qed.
  Lemma chain_app p a b seg : chain L p (a ++ b) seg -> exists sa sb, seg = sa ++ sb /\ chain L (p ++ concat (texts sa)) b sb.
  Proof.
    revert p seg. induction a as [|i a IH]; intros p seg C.
    - exists [], seg. cbn. rewrite app_nil_r. auto.
    - cbn in C. inversion C as [|j p0 x id w path seg0 E C']; subst. destruct (IH _ _ C') as (sa & sb & -> & Cb). exists ((x, id, w) :: sa), sb. split; [reflexivity|]. cbn. rewrite <- app_assoc in Cb. exact Cb.
  Qed.
  Lemma chain_make seg : forall p, Forall (item_ok A m) seg -> s = p ++ concat (texts seg) -> exists ids, chain L p ids seg.
  Proof.
    induction seg as [|[[x id] w] seg IH]; intros p F E.
    - cbn in E. rewrite app_nil_r in E. subst p. exists []. constructor.
    - pose proof (Forall_inv F) as Hit. pose proof (Forall_inv_tail F) as F'. cbn in E. assert (NX : x <> []) by (destruct Hit as [[? _]|(c & -> & _)]; [assumption|discriminate]).
      assert (I : In (p, (x, id, w)) L).
      { apply HA. split; [|split; [exact Hit|cbn; eauto]]. rewrite E, blen_app. pose proof (blen_app_pos [] x NX) as B. rewrite blen_app. cbn in B. lia. }
      apply In_nth_error in I. destruct I as (j & Ej). destruct (IH (p ++ x) F') as (ids & C); [rewrite <- app_assoc; exact E|]. exists (S (S j) :: ids). econstructor; eauto.
  Qed.
  Lemma chain_reads p ids seg : chain L p ids seg -> reads la ids seg.
  Proof.
    induction 1 as [|j p x id w path seg E C IH]; constructor; [|exact IH]. destruct (node_entry A m s la L _ _ _ _ _ HH E) as [E1 E2]. split; [exact E2|]. eexists. split; [exact E1|]. split; reflexivity.
  Qed.

  (** ** Hypotheses *)
  Definition nodes_of (h : hypothesis W) : list nat := h_node h :: h_next h.
  Definition full (ids : list nat) : list nat := 0 :: ids ++ [1].
  Inductive hok (h : hypothesis W) : Prop :=
  | hok_open p mid seg : chain L p mid seg -> nodes_of h = mid ++ [1] -> (exists q, s = p ++ q) -> hok h
  | hok_bos mid seg : chain L [] mid seg -> nodes_of h = full mid -> hok h.

  Lemma open_head p mid seg i r : chain L p mid seg -> i :: r = mid ++ [1] -> (i = 1 /\ p = s) \/ exists j x id w, i = S (S j) /\ nth_error L j = Some (p, (x, id, w)).
  Proof. clear - L. intros C E. inversion C as [|j p0 x id w path seg0 E' C']; subst; cbn in E; injection E as -> _; [auto|]. right. exists j, x, id, w. auto. Qed.

  Definition weight_of (i : nat) : nat :=
    match i with 0 => 1 | 1 => steps (length s) | S (S j) => match nth_error L j with Some (p, _) => steps (length p) | None => 0 end end.
  Definition weight (agenda : list (hypothesis W)) : nat := list_sum (map (fun h => weight_of (h_node h)) agenda).

  Lemma open_start h p mid seg : chain L p mid seg -> nodes_of h = mid ++ [1] -> weight_of (h_node h) = steps (length p) /\ h_node h <> 0.
  Proof. clear - L.
    intros C E. unfold nodes_of in E. inversion C as [|j p0 x id w path seg0 E' C']; subst; cbn in E; injection E as -> _; cbn; [auto|]. rewrite E'. split; [reflexivity|lia].
  Qed.

  Lemma ends_weight p q ends : s = p ++ q -> nth_error (la_end la) (blen p) = Some ends -> list_sum (map weight_of ends) < steps (length p).
  Proof.
    intros Es EE. pose proof (ho_end_nd _ _ _ _ _ HH _ _ EE) as ND.
    assert (C : forall l, In l ends -> ends_at L l p) by (intros l Hl; eapply end_prefix; eauto).
    destruct p as [|c p].
    - assert (Z : forall l, In l ends -> l = 0).
      { intros l Hl. destruct (C l Hl) as [[-> _]|(j & p' & [[x id] w] & -> & EL & EP)]; [reflexivity|]. cbn in EP. destruct (fit _ _ _ _ _ EL) as [NX _]. symmetry in EP. apply app_eq_nil in EP. tauto. }
      destruct ends as [|a [|b ends]]; cbn; [lia|rewrite (Z a) by (left; reflexivity); cbn; lia|]. exfalso. inversion ND as [|? ? NI _]; subst. apply NI. left. rewrite (Z a), (Z b); cbn; auto.
    - set (g := fun i => match i with S (S j) => match nth_error L j with Some (p', _) => length p' | None => 0 end | _ => 0 end).
      assert (K : forall l, In l ends -> exists j p' x id w, l = S (S j) /\ nth_error L j = Some (p', (x, id, w)) /\ c :: p = p' ++ x /\ g l = length p' /\ weight_of l = steps (length p') /\ length p' < S (length p)).
      { intros l Hl. destruct (C l Hl) as [[_ X]|(j & p' & [[x id] w] & -> & EL & EP)]; [discriminate|]. exists j, p', x, id, w. cbn [g weight_of fst] in *. rewrite EL. repeat split; auto.
        destruct (fit _ _ _ _ _ EL) as [NX _]. apply (f_equal (@length N)) in EP. rewrite app_length in EP. cbn in EP. destruct x; [congruence|]. cbn in EP. lia. }
      assert (EW : map weight_of ends = map steps (map g ends)).
      { rewrite map_map. apply map_ext_in. intros l Hl. destruct (K l Hl) as (j & p' & x & id & w & _ & _ & _ & -> & -> & _). reflexivity. }
      rewrite EW. cbn [length]. apply steps_bound.
      + assert (INJ : forall l l', In l ends -> In l' ends -> g l = g l' -> l = l').
        { intros l l' Hl Hl' G. destruct (K l Hl) as (j & p1 & x & id & w & -> & EL & EP & G1 & _). destruct (K l' Hl') as (j' & p1' & x' & id' & w' & -> & EL' & EP' & G1' & _).
          rewrite EP in EP'. assert (p1 = p1' /\ x = x') as [<- <-].
          { assert (LL : length p1 = length p1') by congruence. clear - EP' LL. revert p1' LL EP'. induction p1 as [|a p1 IH]; intros [|b p1'] LL E; cbn in *; try discriminate; [auto|]. injection E as <- E. destruct (IH p1') as [-> ->]; auto. }
          f_equal. f_equal. eapply place_text; eauto. }
        clear - ND INJ. induction ND as [|a l NI ND IH]; cbn; constructor.
        * intros H. apply in_map_iff in H. destruct H as (b & E & Hb). apply NI. rewrite <- (INJ b a); [exact Hb|right; exact Hb|left; reflexivity|exact E].
        * apply IH. intros x y Hx Hy. apply INJ; right; assumption.
      + apply Forall_map. apply Forall_forall. intros l Hl. destruct (K l Hl) as (j & p' & x & id & w & _ & _ & _ & -> & _ & X). exact X.
  Qed.

  (** ** The steps of the search *)
  Context (pop : list (hypothesis W) -> option (hypothesis W * list (hypothesis W))) (HP : bag_pop pop).
  Context (nodes : list (lnode W)) (ST : statics nodes (la_nodes la)).

  Lemma node_there i : i < S (S (length L)) -> exists n, nth_error nodes i = Some n.
  Proof.
    intros H. destruct (nth_error nodes i) as [n|] eqn:E; [eauto|]. apply nth_error_None in E. pose proof (statics_length _ _ ST) as X. rewrite (ho_nodes _ _ _ _ _ HH) in X. cbn in X. rewrite map_length in X. lia.
  Qed.
  Lemma end_low p ends l : nth_error (la_end la) p = Some ends -> In l ends -> l < S (S (length L)).
  Proof.
    intros E I. apply (ho_end _ _ _ _ _ HH _ _ l E) in I. destruct I as [[-> _]|(j & p' & it & -> & EL & _)]; [lia|]. assert (j < length L) by (apply nth_error_Some; congruence). lia.
  Qed.
  Lemma id_differs j p x id w : nth_error L j = Some (p, (x, id, w)) -> N.eqb id (u_bos m) = false.
  Proof. intros E. apply N.eqb_neq. pose proof (ids_low A m Hwf s L _ _ _ _ _ HA E). rewrite (wf_bos m Hwf). lia. Qed.

  Definition child (top : hypothesis W) (l : nat) (h : hypothesis W) : Prop :=
    exists n, nth_error nodes l = Some n /\ h = mkHyp l (nodes_of top) (a_add A (ln_back n) (h_gx top)) (a_add A (ln_score n) (h_gx top)).

  (** The kept part of an agenda. *)
  Definition kept (n : nat) (all l : list (hypothesis W)) : Prop :=
    (N.of_nat (length all) <= 100000)%N /\ l = all \/
    (100000 < N.of_nat (length all))%N /\ take_best pop (Nat.min 512 (n * 10)) all = Ok l.

  Inductive run (n : nat) : list (hypothesis W) -> list (list nat) -> list (list nat) -> Prop :=
  | run_empty hyps : run n [] hyps hyps
  | run_full agenda top rest hyps mid seg : Forall hok agenda -> pop agenda = Some (top, rest) -> chain L [] mid seg -> nodes_of top = full mid -> length (hyps ++ [mid]) = n ->
      run n agenda hyps (hyps ++ [mid])
  | run_bos agenda top rest hyps mid seg out : Forall hok agenda -> pop agenda = Some (top, rest) -> chain L [] mid seg -> nodes_of top = full mid -> length (hyps ++ [mid]) <> n ->
      run n rest (hyps ++ [mid]) out -> run n agenda hyps out
  | run_extend agenda top rest hyps p q mid seg ends new agenda' out : Forall hok agenda -> pop agenda = Some (top, rest) -> chain L p mid seg -> nodes_of top = mid ++ [1] -> s = p ++ q ->
      nth_error (la_end la) (blen p) = Some ends -> Forall2 (child top) ends new -> kept n (rest ++ new) agenda' -> run n agenda' hyps out -> run n agenda hyps out.

  Lemma extend_children top ends : forall new, extend A nodes top ends = Ok new -> Forall2 (child top) ends new.
  Proof.
    induction ends as [|l ends IH]; intros new E; cbn [extend] in E; [injection E as <-; constructor|].
    destruct (nth_error nodes l) as [n|] eqn:En; [|discriminate]. cbn [of_option bind] in E. destruct (extend A nodes top ends) as [hs| |]; cbn [bind] in E; try discriminate. injection E as <-.
    constructor; [|apply IH; reflexivity]. exists n. auto.
  Qed.
  Lemma extend_total top ends p q : s = p ++ q -> nth_error (la_end la) (blen p) = Some ends -> exists new, extend A nodes top ends = Ok new.
  Proof.
    intros Es EE. assert (F : forall l, In l ends -> exists n, nth_error nodes l = Some n).
    { intros l Hl. apply node_there. eapply end_low; eauto. }
    clear EE. induction ends as [|l ends IH]; cbn [extend]; [eauto|]. destruct (F l (or_introl eq_refl)) as (n & ->). cbn [of_option bind]. destruct IH as (new & ->); [intros l' Hl'; apply F; right; exact Hl'|]. cbn [bind]. eauto.
  Qed.

  Lemma pop_perm l h r : pop l = Some (h, r) -> Permutation l (h :: r).
  Proof. apply HP. Qed.
  Lemma take_best_perm k : forall all l, take_best pop k all = Ok l -> exists rest, Permutation all (l ++ rest).
  Proof.
    induction k as [|k IH]; intros all l E; cbn [take_best] in E; [injection E as <-; exists all; reflexivity|].
    destruct (pop all) as [[h r]|] eqn:EP; [|discriminate]. cbn [of_option bind fst snd] in E. destruct (take_best pop k r) as [l'| |] eqn:E'; cbn [bind] in E; try discriminate. injection E as <-.
    destruct (IH _ _ E') as (rest & P). exists rest. rewrite (pop_perm _ _ _ EP), P. reflexivity.
  Qed.
  Lemma take_best_total k : forall all, k <= length all -> exists l, take_best pop k all = Ok l.
  Proof.
    induction k as [|k IH]; intros all H; cbn [take_best]; [eauto|]. destruct (pop all) as [[h r]|] eqn:EP.
    - cbn [of_option bind fst snd]. pose proof (Permutation_length (pop_perm _ _ _ EP)) as PL. cbn in PL. destruct (IH r) as (l & ->); [lia|]. cbn [bind]. eauto.
    - apply (proj1 HP) in EP. subst all. cbn in H. lia.
  Qed.
  Lemma kept_perm n all l : kept n all l -> exists rest, Permutation all (l ++ rest).
  Proof. intros [[_ ->]|[_ E]]; [exists []; rewrite app_nil_r; reflexivity|]. eapply take_best_perm; eauto. Qed.

  Lemma children_hok top p q mid seg ends new : chain L p mid seg -> nodes_of top = mid ++ [1] -> s = p ++ q -> nth_error (la_end la) (blen p) = Some ends -> Forall2 (child top) ends new -> Forall hok new.
  Proof.
    intros C E Es EE F. assert (EA : forall l, In l ends -> ends_at L l p) by (intros l Hl; eapply end_prefix; eauto). clear EE. induction F as [|l h ends new (n & En & ->) F IH]; [constructor|]. constructor; [|apply IH; intros l' Hl'; apply EA; right; exact Hl'].
    destruct (EA l (or_introl eq_refl)) as [[-> ->]|(j & p' & [[x id] w] & -> & EL & ->)].
    - apply (hok_bos _ mid seg C). unfold nodes_of at 1. cbn. rewrite E. reflexivity.
    - apply (hok_open _ p' (S (S j) :: mid) ((x, id, w) :: seg)); [econstructor; eauto|unfold nodes_of at 1; cbn; rewrite E; reflexivity|]. destruct (fit _ _ _ _ _ EL) as [_ (q' & E')]. eauto.
  Qed.
  Lemma hok_perm l l' : Permutation l l' -> Forall hok l -> Forall hok l'.
  Proof. intros P. apply Permutation_Forall. exact P. Qed.

  (** A hypothesis for the beginning has the node 0, the others not. *)
  Lemma hok_cases h node : hok h -> nth_error nodes (h_node h) = Some node ->
    (exists mid seg, chain L [] mid seg /\ nodes_of h = full mid /\ ln_id node = u_bos m) \/
    (exists p q mid seg, chain L p mid seg /\ nodes_of h = mid ++ [1] /\ s = p ++ q /\ ln_pos node = blen p /\ N.eqb (ln_id node) (u_bos m) = false).
  Proof.
    intros [p mid seg C E (q & Es)|mid seg C E] En.
    - right. exists p, q, mid, seg. split; [exact C|]. split; [exact E|]. split; [exact Es|]. destruct (open_head _ _ _ _ _ C E) as [[E0 EP]|(j & x & id & w & E0 & E')].
      + rewrite E0 in En. rewrite EP. destruct (node_cases A m s la L HH nodes _ node ST En) as [[X _]|[[_ (SI & SP & _)]|(j & p' & x & id & w & X & _)]]; try lia. rewrite SP, SI. cbn. split; [reflexivity|]. apply N.eqb_neq. rewrite (wf_eos m Hwf), (wf_bos m Hwf). lia.
      + rewrite E0 in En. destruct (node_cases A m s la L HH nodes _ node ST En) as [[X _]|[[X _]|(j' & p' & x' & id' & w' & X & EL & (SI & SP & _))]]; try lia. injection X as <-. rewrite E' in EL. injection EL as <- <- <- <-. rewrite SP, SI. cbn. split; [reflexivity|]. eapply id_differs; eauto.
    - left. exists mid, seg. split; [exact C|]. split; [exact E|]. unfold nodes_of, full in E. injection E as E0 _. rewrite E0 in En.
      destruct (node_cases A m s la L HH nodes _ node ST En) as [[_ (SI & _)]|[[X _]|(j & p & x & id & w & X & _)]]; try lia. rewrite SI. reflexivity.
  Qed.

  Lemma loop_run n : forall fuel agenda hyps out, Forall hok agenda -> nbest_loop A fuel la nodes (u_bos m) n pop agenda hyps = Ok out -> run n agenda hyps out.
  Proof.
    induction fuel as [|fuel IH]; intros agenda hyps out F E; cbn [nbest_loop] in E; [discriminate|].
    destruct agenda as [|a0 ag]; [cbn in E; injection E as <-; constructor|]. cbn [is_nil] in E. set (agenda := a0 :: ag) in *.
    destruct (pop agenda) as [[top rest]|] eqn:EP; [|discriminate]. cbn [of_option bind] in E.
    pose proof (hok_perm _ _ (pop_perm _ _ _ EP) F) as F'. inversion F' as [|? ? HT FR]; subst.
    destruct (nth_error nodes (h_node top)) as [node|] eqn:EN; [|discriminate]. cbn [of_option bind] in E.
    destruct (hok_cases top node HT EN) as [(mid & seg & C & EF & EI)|(p & q & mid & seg & C & EF & Es & EPos & EI)].
    - rewrite EI, N.eqb_refl in E. pose proof EF as EF'. unfold nodes_of, full in EF'. injection EF' as _ EX. rewrite EX in E. replace (is_nil (mid ++ [1])) with false in E by (destruct mid; reflexivity). rewrite removelast_last in E.
      destruct (Nat.eqb_spec (length (hyps ++ [mid])) n) as [X|X]; [injection E as <-; eapply run_full; eauto|]. eapply run_bos; eauto.
    - rewrite EI, EPos in E. destruct (nth_error (la_end la) (blen p)) as [ends|] eqn:EE; [|discriminate]. cbn [of_option bind] in E.
      destruct (extend A nodes top ends) as [new| |] eqn:EX; cbn [bind] in E; try discriminate. apply extend_children in EX.
      assert (F2 : Forall hok (rest ++ new)) by (apply Forall_app; split; [exact FR|eapply children_hok; eauto]).
      assert (K : forall a3, kept n (rest ++ new) a3 -> nbest_loop A fuel la nodes (u_bos m) n pop a3 hyps = Ok out -> run n agenda hyps out).
      { intros a3 K E3. eapply run_extend; eauto. apply IH; [|exact E3]. destruct (kept_perm _ _ _ K) as (dropped & P). pose proof (hok_perm _ _ P F2) as F3. apply Forall_app in F3. tauto. }
      destruct (N.ltb_spec 100000 (N.of_nat (length (rest ++ new)))) as [LT|LT].
      + destruct (take_best pop (Nat.min 512 (n * 10)) (rest ++ new)) as [a3| |] eqn:ET; cbn [bind] in E; try discriminate. apply (K a3); [right; auto|exact E].
      + cbn [bind] in E. apply (K (rest ++ new)); [left; auto|exact E].
  Qed.

  Lemma weight_perm l l' : Permutation l l' -> weight l = weight l'.
  Proof. intros P. apply list_sum_perm. apply Permutation_map. exact P. Qed.
  Lemma weight_app l l' : weight (l ++ l') = weight l + weight l'.
  Proof. unfold weight. rewrite map_app. apply list_sum_app. Qed.
  Lemma weight_children top ends new : Forall2 (child top) ends new -> weight new = list_sum (map weight_of ends).
  Proof. unfold weight. induction 1 as [|l h ends new (n & En & ->) F IH]; [reflexivity|]. cbn [map list_sum fold_right h_node]. unfold list_sum in IH. rewrite IH. reflexivity. Qed.

  (** One extension makes the agenda lighter. *)
  Lemma extend_weight agenda top rest p q mid seg ends new : pop agenda = Some (top, rest) -> chain L p mid seg -> nodes_of top = mid ++ [1] -> s = p ++ q ->
    nth_error (la_end la) (blen p) = Some ends -> Forall2 (child top) ends new -> weight (rest ++ new) < weight agenda.
  Proof.
    intros EP C E Es EE F. rewrite (weight_perm _ _ (pop_perm _ _ _ EP)), weight_app, (weight_children _ _ _ F). unfold weight at 2. cbn [map list_sum fold_right]. fold (weight rest).
    destruct (open_start top p mid seg C E) as [-> _]. pose proof (ends_weight p q ends Es EE). unfold weight, list_sum in *. lia.
  Qed.

  Lemma loop_total n : 0 < n -> forall fuel agenda hyps, Forall hok agenda -> weight agenda < fuel -> exists out, nbest_loop A fuel la nodes (u_bos m) n pop agenda hyps = Ok out.
  Proof.
    intros Hn. induction fuel as [|fuel IH]; intros agenda hyps F LW; [lia|]. cbn [nbest_loop].
    destruct agenda as [|a0 ag]; [cbn; eauto|]. cbn [is_nil]. set (agenda := a0 :: ag) in *.
    destruct (pop agenda) as [[top rest]|] eqn:EP; [|apply (proj1 HP) in EP; discriminate]. cbn [of_option bind].
    pose proof (hok_perm _ _ (pop_perm _ _ _ EP) F) as F'. inversion F' as [|? ? HT FR]; subst.
    assert (EN : exists node, nth_error nodes (h_node top) = Some node).
    { apply node_there. destruct HT as [p mid seg C E _|mid seg C E]; [|unfold nodes_of, full in E; injection E as -> _; lia].
      destruct (open_head _ _ _ _ _ C E) as [[-> _]|(j & x & id & w & -> & E')]; [lia|]. assert (j < length L) by (apply nth_error_Some; congruence). lia. }
    destruct EN as (node & EN). rewrite EN. cbn [of_option bind].
    destruct (hok_cases top node HT EN) as [(mid & seg & C & EF & EI)|(p & q & mid & seg & C & EF & Es & EPos & EI)].
    - rewrite EI, N.eqb_refl. pose proof EF as EF'. unfold nodes_of, full in EF'. injection EF' as E0 EX. rewrite EX. replace (is_nil (mid ++ [1])) with false by (destruct mid; reflexivity).
      destruct (length _ =? n); [eauto|]. apply IH; [exact FR|]. rewrite (weight_perm _ _ (pop_perm _ _ _ EP)) in LW. unfold weight in LW. cbn [map list_sum fold_right] in LW. rewrite E0 in LW. cbn [weight_of] in LW. unfold weight, list_sum. lia.
    - rewrite EI, EPos. destruct (nth_error (la_end la) (blen p)) as [ends|] eqn:EE.
      2:{ apply nth_error_None in EE. rewrite (ho_lene _ _ _ _ _ HH), Es, blen_app in EE. lia. }
      cbn [of_option bind]. destruct (extend_total top ends p q Es EE) as (new & EX). rewrite EX. cbn [bind]. apply extend_children in EX.
      assert (F2 : Forall hok (rest ++ new)) by (apply Forall_app; split; [exact FR|eapply children_hok; eauto]).
      pose proof (extend_weight _ _ _ _ _ _ _ _ _ EP C EF Es EE EX) as LW2.
      assert (K : forall a3, kept n (rest ++ new) a3 -> exists out, nbest_loop A fuel la nodes (u_bos m) n pop a3 hyps = Ok out).
      { intros a3 K. destruct (kept_perm _ _ _ K) as (dropped & P). apply IH; [pose proof (hok_perm _ _ P F2) as F3; apply Forall_app in F3; tauto|]. rewrite (weight_perm _ _ P), weight_app in LW2. lia. }
      destruct (N.ltb_spec 100000 (N.of_nat (length (rest ++ new)))) as [LT|LT].
      + destruct (take_best_total (Nat.min 512 (n * 10)) (rest ++ new)) as (a3 & ET); [|rewrite ET; cbn [bind]; apply K; right; auto]. assert (512 < N.of_nat (length (rest ++ new)))%N by lia. lia.
      + cbn [bind]. apply K. left. auto.
  Qed.

  (** ** Each once *)
  Definition state (agenda : list (hypothesis W)) (hyps : list (list nat)) : list (list nat) := map nodes_of agenda ++ map full hyps.

  Lemma run_paths n agenda hyps out : run n agenda hyps out -> Forall (path_ok s L) hyps -> Forall (path_ok s L) out.
  Proof.
    induction 1 as [hyps|agenda top rest hyps mid seg FA EP C E EN|agenda top rest hyps mid seg out FA EP C E EN R IH|agenda top rest hyps p q mid seg ends new agenda' out FA EP C E Es EE F K R IH]; intros H; auto.
    - apply Forall_app. split; [exact H|]. constructor; [exists seg; exact C|constructor].
    - apply IH. apply Forall_app. split; [exact H|]. constructor; [exists seg; exact C|constructor].
  Qed.

  Lemma state_pop agenda top rest hyps mid : pop agenda = Some (top, rest) -> nodes_of top = full mid -> Permutation (state agenda hyps) (state rest (hyps ++ [mid])).
  Proof.
    intros EP E. unfold state. rewrite (Permutation_map nodes_of (pop_perm _ _ _ EP)). cbn [map]. rewrite map_app, E. cbn [map app]. rewrite app_assoc. apply Permutation_cons_append.
  Qed.
  Lemma children_nodes top ends new : Forall2 (child top) ends new -> map nodes_of new = map (fun l => l :: nodes_of top) ends.
  Proof. induction 1 as [|l h ends new (n & En & ->) F IH]; [reflexivity|]. cbn [map]. rewrite IH. reflexivity. Qed.

  Lemma run_antichain n agenda hyps out : run n agenda hyps out -> antichain (state agenda hyps) -> antichain (map full out).
  Proof.
    induction 1 as [hyps|agenda top rest hyps mid seg FA EP C E EN|agenda top rest hyps mid seg out FA EP C E EN R IH|agenda top rest hyps p q mid seg ends new agenda' out FA EP C E Es EE F K R IH]; intros H; auto.
    - apply (antichain_perm _ _ (state_pop _ _ _ hyps _ EP E)) in H. eapply antichain_app_r. exact H.
    - apply IH. eapply antichain_perm; [eapply state_pop; eauto|exact H].
    - apply IH. destruct (kept_perm _ _ _ K) as (dropped & P).
      assert (H1 : antichain (nodes_of top :: state rest hyps)).
      { eapply antichain_perm; [|exact H]. unfold state. rewrite (Permutation_map nodes_of (pop_perm _ _ _ EP)). reflexivity. }
      apply (antichain_extend _ _ ends (ho_end_nd _ _ _ _ _ HH _ _ EE)) in H1. rewrite <- (children_nodes _ _ _ F) in H1.
      apply (antichain_app_r (map nodes_of dropped)). eapply antichain_perm; [|exact H1]. unfold state. rewrite !app_assoc. apply Permutation_app_tail.
      rewrite <- (map_app nodes_of dropped). rewrite <- map_app. apply Permutation_map. rewrite (Permutation_app_comm dropped), <- P. apply Permutation_app_comm.
  Qed.

  Lemma run_length n agenda hyps out : run n agenda hyps out -> length hyps < n -> length out <= n.
  Proof.
    induction 1 as [hyps|agenda top rest hyps mid seg FA EP C E EN|agenda top rest hyps mid seg out FA EP C E EN R IH|agenda top rest hyps p q mid seg ends new agenda' out FA EP C E Es EE F K R IH]; intros H; try lia; auto.
    apply IH. rewrite app_length in *. cbn in *. lia.
  Qed.

  (** ** All *)
  Definition covers (agenda : list (hypothesis W)) (ids : list nat) : Prop := exists h, In h agenda /\ suffix (nodes_of h) (full ids).

  Lemma full_suffix mid ids seg : chain L [] ids seg -> suffix (full mid) (full ids) -> mid = ids.
  Proof.
    intros C (x & E). apply chain_low in C. destruct x as [|a x].
    - cbn in E. unfold full in E. injection E as E. apply app_inj_tail in E. symmetry. tauto.
    - exfalso. cbn in E. unfold full at 1 in E. injection E as _ E. unfold full in E. assert (I : In 0 (ids ++ [1])) by (rewrite E; apply in_app_iff; right; left; reflexivity). rewrite in_app_iff in I. destruct I as [I|[I|[]]]; [|discriminate].
      rewrite Forall_forall in C. specialize (C 0 I). lia.
  Qed.

  (** The node before another one in a complete path ends where this one starts. *)
  Lemma chain_before p ids seg : chain L p ids seg -> forall l mid, suffix (l :: mid ++ [1]) (ids ++ [1]) -> exists j p' it, l = S (S j) /\ nth_error L j = Some (p', it) /\ exists seg', chain L (p' ++ fst (fst it)) mid seg'.
  Proof.
    induction 1 as [|j p x id w path seg E C IH]; intros l mid (y & EQ).
    - exfalso. apply (f_equal (@length nat)) in EQ. cbn in EQ. rewrite app_length in EQ. cbn in EQ. rewrite app_length in EQ. cbn in EQ. lia.
    - destruct y as [|a y]; cbn in EQ.
      + injection EQ as <- EQ. apply app_inj_tail in EQ. destruct EQ as [<- _]. exists j, p, (x, id, w). eauto.
      + injection EQ as _ EQ. apply (IH l mid). exists y. exact EQ.
  Qed.

  Lemma chain_start p ids seg : chain L p ids seg -> forall p' seg', chain L p' ids seg' -> p = p'.
  Proof. clear - L.
    intros C p' seg' C'. inversion C; subst; inversion C'; subst; [reflexivity|]. congruence.
  Qed.

  Lemma cover_extend top p q mid seg ends new ids sg : chain L p mid seg -> nodes_of top = mid ++ [1] -> s = p ++ q -> nth_error (la_end la) (blen p) = Some ends -> Forall2 (child top) ends new ->
    chain L [] ids sg -> suffix (nodes_of top) (full ids) -> covers new ids.
  Proof.
    intros C E Es EE F CI (x & EX).
    assert (X : exists y l, x = y ++ [l] /\ In l ends).
    { destruct (exists_last_or_nil x) as [->|(y & l & ->)].
      - exfalso. destruct (open_start top p mid seg C E) as [_ N]. unfold full, nodes_of in EX. cbn in EX. injection EX as EX _. congruence.
      - exists y, l. split; [reflexivity|]. rewrite E, <- app_assoc in EX. cbn in EX. destruct y as [|a y].
        + cbn in EX. unfold full in EX. injection EX as <- EX. apply app_inj_tail in EX. destruct EX as [<- _]. assert (p = []) by (eapply chain_start; eauto). subst p. apply (ho_end _ _ _ _ _ HH _ _ 0 EE). left. auto.
        + cbn in EX. unfold full in EX. injection EX as _ EX. destruct (chain_before _ _ _ CI l mid) as (j & p' & it & -> & EL & seg' & C'); [exists y; exact EX|]. apply (ho_end _ _ _ _ _ HH _ _ _ EE). right. exists j, p', it. split; [reflexivity|]. split; [exact EL|].
          f_equal. eapply chain_start; eauto. }
    destruct X as (y & l & -> & Hl). pose proof (children_nodes _ _ _ F) as EN. assert (I : In (l :: nodes_of top) (map nodes_of new)) by (rewrite EN; apply in_map_iff; exists l; auto).
    apply in_map_iff in I. destruct I as (h & EH & Hh). exists h. split; [exact Hh|]. exists y. rewrite EH, EX, <- app_assoc. reflexivity.
  Qed.

  Lemma covers_pop agenda top rest ids : pop agenda = Some (top, rest) -> covers agenda ids -> suffix (nodes_of top) (full ids) \/ covers rest ids.
  Proof.
    intros EP (h & Hh & S). apply (Permutation_in _ (pop_perm _ _ _ EP)) in Hh. destruct Hh as [->|Hh]; [auto|]. right. exists h. auto.
  Qed.
  Lemma covers_app a b ids : covers (a ++ b) ids <-> covers a ids \/ covers b ids.
  Proof. unfold covers. split; [intros (h & Hh & S); apply in_app_iff in Hh; destruct Hh; [left|right]; eauto|intros [(h & Hh & S)|(h & Hh & S)]; exists h; rewrite in_app_iff; auto]. Qed.

  (** With few enough hypotheses the agenda is never cut. *)
  Definition light (agenda : list (hypothesis W)) : Prop := (N.of_nat (weight agenda) <= 100000)%N.
  Lemma weight_length l : Forall hok l -> length l <= weight l.
  Proof.
    induction 1 as [|h l H F IH]; [cbn; lia|]. unfold weight in *. cbn [map list_sum fold_right length]. unfold list_sum in IH.
    assert (1 <= weight_of (h_node h)); [|lia]. destruct H as [p mid seg C E _|mid seg C E]; [destruct (open_start h p mid seg C E) as [-> _]; pose proof (steps_pos (length p)); lia|]. unfold nodes_of, full in E. injection E as -> _. cbn. lia.
  Qed.
  Lemma kept_light n agenda top rest p q mid seg ends new l : Forall hok agenda -> pop agenda = Some (top, rest) -> chain L p mid seg -> nodes_of top = mid ++ [1] -> s = p ++ q ->
    nth_error (la_end la) (blen p) = Some ends -> Forall2 (child top) ends new -> light agenda -> kept n (rest ++ new) l -> l = rest ++ new /\ light l.
  Proof.
    intros FA EP C E Es EE F LI K. pose proof (extend_weight _ _ _ _ _ _ _ _ _ EP C E Es EE F) as LW. unfold light in *.
    assert (F2 : Forall hok (rest ++ new)).
    { apply Forall_app. split; [|eapply children_hok; eauto]. pose proof (hok_perm _ _ (pop_perm _ _ _ EP) FA) as X. inversion X; assumption. }
    pose proof (weight_length _ F2). destruct K as [[_ ->]|[X _]]; [split; [reflexivity|]; lia|lia].
  Qed.

  Lemma run_complete n agenda hyps out : run n agenda hyps out -> light agenda -> (forall ids sg, chain L [] ids sg -> In ids hyps \/ covers agenda ids) ->
    length out < n -> forall ids sg, chain L [] ids sg -> In ids out.
  Proof.
    induction 1 as [hyps|agenda top rest hyps mid seg FA EP C E EN|agenda top rest hyps mid seg out FA EP C E EN R IH|agenda top rest hyps p q mid seg ends new agenda' out FA EP C E Es EE F K R IH]; intros LI CV LT; try lia.
    - intros ids sg CI. destruct (CV ids sg CI) as [H|(h & [] & _)]. exact H.
    - apply IH; [|intros ids sg CI; destruct (CV ids sg CI) as [H|H]|exact LT].
      + unfold light in *. rewrite (weight_perm _ _ (pop_perm _ _ _ EP)) in LI. unfold weight in *. cbn [map list_sum fold_right] in LI. unfold list_sum. lia.
      + left. apply in_app_iff. auto.
      + destruct (covers_pop _ _ _ _ EP H) as [S|S]; [|auto]. left. apply in_app_iff. right. left. rewrite E in S. eapply full_suffix; eauto.
    - destruct (kept_light _ _ _ _ _ _ _ _ _ _ _ FA EP C E Es EE F LI K) as [-> LI']. apply IH; [exact LI'| |exact LT]. intros ids sg CI. destruct (CV ids sg CI) as [H|H]; [auto|]. right. apply covers_app.
      destruct (covers_pop _ _ _ _ EP H) as [S|S]; [|auto]. right. apply (cover_extend top p q mid seg ends new ids sg); assumption.
  Qed.
End nbest_proofs.
