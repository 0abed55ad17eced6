(** Expected counts, and the chances of samples. *)
From Coq Require Import Permutation Ring.
From Verif Require Import Base StrBytes ListFacts AMap Utf8 EncodingModel BpeWordModel BpeWordProofs BpeModel TrieModel UnigramModel UnigramSpec UnigramProofs UnigramProofs2 UnigramProofs3 UnigramProofs4 NBestSpec NBestProofs MarginalModel MarginalSpec MarginalProofs MarginalProofs2 MarginalProofs3.

Lemma nth_some {X} (l : list X) k : k < length l -> exists x, nth_error l k = Some x.
Proof. intros H. destruct (nth_error l k) eqn:E; [eauto|]. apply nth_error_None in E. lia. Qed.

(** ** No panic, whatever the arithmetic *)
Section total.
  Context {W K : Type} (A : arith W) (M : marith W K).

  Lemma sum_into_total nodes weigh first to from : forall acc, to < length acc -> (forall l, In l from -> l < length nodes /\ l < length acc) ->
    exists acc', sum_into A M nodes weigh first to from acc = Ok acc' /\ length acc' = length acc.
  Proof.
    induction from as [|l from IH]; intros acc LT H; [exists acc; auto|]. destruct (H l (or_introl eq_refl)) as [L1 L2]. cbn [sum_into].
    destruct (nth_some nodes l L1) as (n & ->). destruct (nth_some acc l L2) as (a & ->). destruct (nth_some acc to LT) as (x & ->). cbn [of_option bind].
    match goal with |- context [sum_into _ _ _ _ _ _ _ ?b] => destruct (IH b) as (acc' & E & EL) end.
    - rewrite upd_length. exact LT.
    - intros l' Hl'. rewrite upd_length. apply H. right. exact Hl'.
    - exists acc'. split; [exact E|]. rewrite EL. apply upd_length.
  Qed.
  Lemma sums_into_total nodes weigh tos from : forall acc, (forall t, In t tos -> t < length acc) -> (forall l, In l from -> l < length nodes /\ l < length acc) ->
    exists acc', sums_into A M nodes weigh tos from acc = Ok acc' /\ length acc' = length acc.
  Proof.
    induction tos as [|t tos IH]; intros acc HT HF; [exists acc; auto|]. cbn [sums_into].
    assert (G : exists acc1, match from with [] => Ok acc | f :: _ => let! first := of_option (nth_error nodes f) in sum_into A M nodes weigh first t from acc end = Ok acc1 /\ length acc1 = length acc).
    { destruct from as [|f from]; [exists acc; auto|]. destruct (nth_some nodes f) as (first & ->); [apply HF; left; reflexivity|]. cbn [of_option bind]. apply sum_into_total; [apply HT; left; reflexivity|exact HF]. }
    destruct G as (acc1 & -> & L1). cbn [bind]. destruct (IH acc1) as (acc' & E & L2).
    - intros t' Ht'. rewrite L1. apply HT. right. exact Ht'.
    - intros l Hl. rewrite L1. apply HF. exact Hl.
    - exists acc'. split; [exact E|]. congruence.
  Qed.
  Lemma sweep_total nodes weigh tos froms positions : (forall pos, In pos positions -> pos < length tos /\ pos < length froms) ->
    (forall pos l i, nth_error tos pos = Some l -> In i l -> i < length nodes) -> (forall pos l i, nth_error froms pos = Some l -> In i l -> i < length nodes) ->
    forall acc, length acc = length nodes -> exists acc', sweep A M nodes weigh tos froms positions acc = Ok acc' /\ length acc' = length nodes.
  Proof.
    intros HP HT HF. induction positions as [|pos positions IH]; intros acc LA; [exists acc; auto|]. destruct (HP pos (or_introl eq_refl)) as [P1 P2]. cbn [sweep].
    destruct (nth_some tos pos P1) as (ts & E1). destruct (nth_some froms pos P2) as (fs & E2). rewrite E1, E2. cbn [of_option bind].
    destruct (sums_into_total nodes weigh ts fs acc) as (acc1 & E & L1).
    - intros t Ht. rewrite LA. eapply HT; eauto.
    - intros l Hl. rewrite LA. split; eapply HF; eauto.
    - rewrite E. cbn [bind]. apply IH; [intros p Hp; apply HP; right; exact Hp|lia].
  Qed.

  Lemma count_nodes_total nodes alpha beta z freq here : length alpha = length nodes -> length beta = length nodes -> forall expected : list K,
    (forall i, In i here -> exists n, nth_error nodes i = Some n /\ N.to_nat (ln_id n) < length expected) ->
    exists expected', count_nodes A M nodes alpha beta z freq here expected = Ok expected' /\ length expected' = length expected.
  Proof.
    intros LA LB. induction here as [|i here IH]; intros expected H; [exists expected; auto|]. destruct (H i (or_introl eq_refl)) as (n & En & Lid). assert (LI : i < length nodes) by (apply nth_error_Some; congruence).
    cbn [count_nodes]. rewrite En. destruct (nth_some alpha i) as (a & ->); [lia|]. destruct (nth_some beta i) as (b & ->); [lia|]. cbn [of_option bind]. destruct (nth_some expected _ Lid) as (k & ->). cbn [of_option bind].
    match goal with |- context [count_nodes _ _ _ _ _ _ _ _ ?b] => destruct (IH b) as (e' & E & EL) end.
    - intros j Hj. rewrite upd_length. apply H. right. exact Hj.
    - exists e'. split; [exact E|]. rewrite EL. apply upd_length.
  Qed.
  Lemma count_nodes_app nodes alpha beta z freq h1 : forall h2 (e : list K), count_nodes A M nodes alpha beta z freq (h1 ++ h2) e = let! e1 := count_nodes A M nodes alpha beta z freq h1 e in count_nodes A M nodes alpha beta z freq h2 e1.
  Proof.
    induction h1 as [|i h1 IH]; intros h2 e; [reflexivity|]. cbn [app count_nodes]. destruct (nth_error nodes i) as [n|]; [|reflexivity]. destruct (nth_error alpha i); [|reflexivity]. destruct (nth_error beta i); [|reflexivity]. cbn [of_option bind].
    destruct (nth_error e (N.to_nat (ln_id n))); [|reflexivity]. cbn [of_option bind]. apply IH.
  Qed.

  Definition visited (la : lattice W) (positions : list nat) : list nat := flat_map (fun pos => nth pos (la_begin la) []) positions.
  Lemma count_positions_flat la alpha beta z freq positions : (forall pos, In pos positions -> pos < length (la_begin la)) -> forall e : list K,
    count_positions A M la alpha beta z freq positions e = count_nodes A M (la_nodes la) alpha beta z freq (visited la positions) e.
  Proof.
    induction positions as [|pos positions IH]; intros H e; [reflexivity|]. cbn [count_positions visited flat_map]. rewrite count_nodes_app. destruct (nth_some (la_begin la) pos) as (h & E); [apply H; left; reflexivity|]. rewrite E. cbn [of_option bind].
    rewrite (nth_error_nth _ _ [] E). destruct (count_nodes A M (la_nodes la) alpha beta z freq h e); [|reflexivity|reflexivity]. cbn [bind]. apply IH. intros p Hp. apply H. right. exact Hp.
  Qed.

  Context (m : unigram W) (Hwf : wf m) (s : str) (la : lattice W) (L : list (str * (str * N * W))) (HH : holds A m s la L) (AL : all_to A m s (blen s) L).

  Lemma begins_low pos l i : nth_error (la_begin la) pos = Some l -> In i l -> i < length (la_nodes la).
  Proof.
    intros E I. apply (ho_begin _ _ _ _ _ HH _ _ i E) in I. rewrite (ho_nodes _ _ _ _ _ HH). cbn. rewrite map_length. destruct I as [[-> _]|(j & p & it & -> & EL & _)]; [lia|]. assert (j < length L) by (apply nth_error_Some; congruence). lia.
  Qed.
  Lemma ends_low pos l i : nth_error (la_end la) pos = Some l -> In i l -> i < length (la_nodes la).
  Proof.
    intros E I. apply (ho_end _ _ _ _ _ HH _ _ i E) in I. rewrite (ho_nodes _ _ _ _ _ HH). cbn. rewrite map_length. destruct I as [[-> _]|(j & p & it & -> & EL & _)]; [lia|]. assert (j < length L) by (apply nth_error_Some; congruence). lia.
  Qed.
  Lemma visited_in i : In i (visited la (seq 0 (blen s))) <-> exists j e, i = S (S j) /\ nth_error L j = Some e.
  Proof.
    unfold visited. rewrite in_flat_map. split.
    - intros (pos & Hp & I). apply in_seq in Hp. destruct (nth_some (la_begin la) pos) as (h & E); [rewrite (ho_lenb _ _ _ _ _ HH); lia|]. rewrite (nth_error_nth _ _ [] E) in I. apply (ho_begin _ _ _ _ _ HH _ _ i E) in I. destruct I as [[_ X]|(j & p & it & -> & EL & _)]; [lia|eauto].
    - intros (j & [p it] & -> & EL). assert (I := nth_error_In _ _ EL). apply AL in I. destruct I as (B & _). exists (blen p). split; [apply in_seq; lia|]. destruct (nth_some (la_begin la) (blen p)) as (h & E); [rewrite (ho_lenb _ _ _ _ _ HH); lia|].
      rewrite (nth_error_nth _ _ [] E). apply (ho_begin _ _ _ _ _ HH _ _ _ E). right. eauto 8.
  Qed.
  Lemma visited_nodup : NoDup (visited la (seq 0 (blen s))).
  Proof.
    unfold visited. apply nodup_flat; [apply seq_NoDup| |].
    - intros pos Hp. apply in_seq in Hp. destruct (nth_some (la_begin la) pos) as (h & E); [rewrite (ho_lenb _ _ _ _ _ HH); lia|]. rewrite (nth_error_nth _ _ [] E). apply (ho_begin_nd _ _ _ _ _ HH _ _ E).
    - intros p1 p2 i H1 H2 I1 I2. apply in_seq in H1, H2. destruct (nth_some (la_begin la) p1) as (h1 & E1); [rewrite (ho_lenb _ _ _ _ _ HH); lia|]. destruct (nth_some (la_begin la) p2) as (h2 & E2); [rewrite (ho_lenb _ _ _ _ _ HH); lia|].
      rewrite (nth_error_nth _ _ [] E1) in I1. rewrite (nth_error_nth _ _ [] E2) in I2. apply (ho_begin _ _ _ _ _ HH _ _ i E1) in I1. apply (ho_begin _ _ _ _ _ HH _ _ i E2) in I2.
      destruct I1 as [[-> I1]|(j & p & it & -> & EL & ->)], I2 as [[I2 I2']|(j' & p' & it' & I2 & EL' & ->)]; try lia. injection I2 as <-. rewrite EL in EL'. injection EL' as <- <-. reflexivity.
  Qed.

  Lemma forward_total weigh : exists alpha, forward A M weigh la = Ok alpha /\ length alpha = length (la_nodes la).
  Proof.
    unfold forward. rewrite (ho_s _ _ _ _ _ HH). apply sweep_total; [|exact begins_low|exact ends_low|apply repeat_length]. intros pos Hp. apply in_seq in Hp. rewrite (ho_lenb _ _ _ _ _ HH), (ho_lene _ _ _ _ _ HH). lia.
  Qed.
  Lemma backward_total : exists beta, backward A M la = Ok beta /\ length beta = length (la_nodes la).
  Proof.
    unfold backward. rewrite (ho_s _ _ _ _ _ HH). apply sweep_total; [|exact ends_low|exact begins_low|apply repeat_length]. intros pos Hp. apply in_rev in Hp. apply in_seq in Hp. rewrite (ho_lenb _ _ _ _ _ HH), (ho_lene _ _ _ _ _ HH). lia.
  Qed.
  Lemma visited_ids i : In i (visited la (seq 0 (blen s))) -> exists n, nth_error (la_nodes la) i = Some n /\ N.to_nat (ln_id n) < length (u_vocab m).
  Proof.
    intros I. apply visited_in in I. destruct I as (j & [p [[x id] w]] & -> & EL). exists (lnode_new A id (blen p) (blen x) w). split; [eapply at_node; eauto|]. cbn. pose proof (ids_low A m Hwf s _ _ _ _ _ _ AL EL). lia.
  Qed.
  Lemma marginal_total freq (expected : list K) : length (u_vocab m) <= length expected -> exists expected' r, populate_marginal A M la freq expected = Ok (expected', r) /\ length expected' = length expected.
  Proof.
    intros LE. unfold populate_marginal. destruct (forward_total (fun x => x)) as (alpha & -> & LA). cbn [bind]. destruct backward_total as (beta & -> & LB). cbn [bind].
    rewrite (eos_is A m s la L HH). cbn [bind]. destruct (nth_some alpha 1) as (z & Ez); [rewrite LA, (nodes_length A m s la L HH); lia|]. rewrite Ez. cbn [of_option bind]. rewrite (ho_s _ _ _ _ _ HH).
    rewrite count_positions_flat by (intros pos Hp; apply in_seq in Hp; rewrite (ho_lenb _ _ _ _ _ HH); lia).
    destruct (count_nodes_total (la_nodes la) alpha beta z freq (visited la (seq 0 (blen s))) LA LB expected) as (e' & E & EL).
    - intros i Hi. apply visited_ids in Hi. destruct Hi as (n & En & Li). exists n. split; [exact En|lia].
    - rewrite E. cbn [bind]. eauto.
  Qed.
End total.

Section expected.
  Context {W K : Type} (A : arith W) (M : marith W K) (zero one : K) (inv : K -> K) (HX : exact_marith A M zero one inv).
  Add Ring Kring4 : (xm_ring _ _ _ _ _ HX).
  Notation ksum := (ksum M zero).
  Infix "+K" := (ma_plus M) (at level 50, left associativity).
  Infix "*K" := (ma_mul M) (at level 40, left associativity).
  Context (m : unigram W) (Hwf : wf m) (s : str).
  Context (la : lattice W) (L : list (str * (str * N * W))) (HH : holds A m s la L) (AL : all_to A m s (blen s) L) (ND : NoDup L).
  Context (HP : forall p c q, s = p ++ c :: q -> exists it, In (p, it) L /\ fst (fst it) = [c]) (HU : unk_apart m s).
  Notation mass := (mass A M zero one m).
  Notation nodes := (la_nodes la).
  Notation before_of := (before_of A M zero one m s L).
  Notation after_of := (after_of A M zero one m s L).
  Notation sc := (sc M zero la).

  Definition is_id (id : N) (i : nat) : bool := match nth_error nodes i with Some n => N.eqb id (ln_id n) | None => false end.

  Lemma count_nodes_spec alpha beta z freq here : (forall i, In i here -> i < length nodes) -> (forall i, i < length nodes -> right M before_of alpha i) -> (forall i, i < length nodes -> right M after_of beta i) ->
    forall e e', count_nodes A M nodes alpha beta z freq here e = Ok e' -> forall id k, nth_error e (N.to_nat id) = Some k ->
    nth_error e' (N.to_nat id) = Some (k +K (freq *K inv (ma_exp M z)) *K ksum (map (fun i => before_of i *K sc i *K after_of i) (filter (is_id id) here))).
  Proof.
    intros HN HA HB. induction here as [|i here IH]; intros e e' E id k Ek.
    - cbn in E. injection E as <-. rewrite Ek. f_equal. unfold MarginalSpec.ksum. cbn. ring.
    - cbn [count_nodes] in E. destruct (nth_error nodes i) as [n|] eqn:En; [|discriminate]. assert (LI : i < length nodes) by (apply nth_error_Some; congruence).
      destruct (HA i LI) as (a & Ea & Va). destruct (HB i LI) as (b & Eb & Vb). rewrite Ea, Eb in E. cbn [of_option bind] in E.
      destruct (nth_error e (N.to_nat (ln_id n))) as [k0|] eqn:E0; [|discriminate]. cbn [of_option bind] in E.
      set (u := freq *K ma_exp M (ma_sub M (a_add A (a_add A a (ln_score n)) b) z)) in *.
      assert (EU : u = (freq *K inv (ma_exp M z)) *K (before_of i *K sc i *K after_of i)).
      { unfold u. rewrite (xm_sub _ _ _ _ _ HX), !(xm_add _ _ _ _ _ HX), Va, Vb, (sc_spec M zero la i n En). ring. }
      cbn [filter]. unfold is_id at 1. rewrite En. destruct (N.eqb_spec id (ln_id n)) as [->|NE].
      + assert (X : nth_error (upd e (N.to_nat (ln_id n)) (fun k1 => k1 +K u)) (N.to_nat (ln_id n)) = Some (k +K u)) by (rewrite nth_error_upd, Nat.eqb_refl, Ek; reflexivity).
        rewrite (IH (fun j Hj => HN j (or_intror Hj)) _ _ E _ _ X). f_equal. rewrite EU. unfold MarginalSpec.ksum. cbn [map fold_right]. ring.
      + assert (X : nth_error (upd e (N.to_nat (ln_id n)) (fun k1 => k1 +K u)) (N.to_nat id) = Some k) by (rewrite nth_error_upd; destruct (Nat.eqb_spec (N.to_nat (ln_id n)) (N.to_nat id)) as [Q|_]; [apply N2Nat.inj in Q; congruence|exact Ek]).
        apply (IH (fun j Hj => HN j (or_intror Hj)) _ _ E _ _ X).
  Qed.

  Lemma marginal_spec freq expected segs : length (u_vocab m) <= length expected -> all_segmentations A m s segs ->
    exists expected' z, populate_marginal A M la freq expected = Ok (expected', ma_scale M freq z) /\ ma_exp M z = evidence M zero one segs /\ length expected' = length expected /\
      forall id k, nth_error expected (N.to_nat id) = Some k ->
        nth_error expected' (N.to_nat id) = Some (k +K freq *K (weighted_count M zero one id segs *K inv (evidence M zero one segs))).
  Proof.
    intros LE AS. unfold populate_marginal.
    destruct (forward_spec A M zero one inv HX m Hwf s la L HH AL ND HP HU (fun x => x) (fun x => eq_refl)) as (alpha & -> & LA & RA). cbn [bind].
    destruct (backward_spec A M zero one inv HX m Hwf s la L HH AL ND HP HU) as (beta & -> & LB & RB). cbn [bind].
    rewrite (eos_is A m s la L HH). cbn [bind]. destruct (RA 1) as (z & Ez & Vz); [rewrite (nodes_length A m s la L HH); lia|]. rewrite Ez. cbn [of_option bind]. rewrite (ho_s _ _ _ _ _ HH).
    cbn [MarginalProofs3.before_of] in Vz. rewrite (evidence_mass A M zero one inv HX m Hwf s segs AS).
    assert (B0 : forall pos, In pos (seq 0 (blen s)) -> pos < length (la_begin la)) by (intros pos Hp; apply in_seq in Hp; rewrite (ho_lenb _ _ _ _ _ HH); lia).
    rewrite (count_positions_flat A M la alpha beta z freq _ B0).
    destruct (count_nodes_total A M nodes alpha beta z freq (visited la (seq 0 (blen s))) LA LB expected) as (e' & E & EL).
    - intros i Hi. apply (visited_ids A m Hwf s la L HH AL) in Hi. destruct Hi as (n & En & Li). exists n. split; [exact En|lia].
    - rewrite E. cbn [bind]. exists e', z. split; [reflexivity|]. split; [exact Vz|]. split; [exact EL|]. intros id k Ek.
      assert (VI : forall i, In i (visited la (seq 0 (blen s))) -> exists j e, i = S (S j) /\ nth_error L j = Some e) by (intros i; apply (visited_in A m s la L HH AL)).
      rewrite (count_nodes_spec alpha beta z freq (visited la (seq 0 (blen s)))) with (e := expected) (e' := e') (k := k); [|intros i Hi; destruct (VI i Hi) as (j & e & -> & Ej); rewrite (nodes_length A m s la L HH); assert (j < length L) by (apply nth_error_Some; congruence); lia|exact RA|exact RB|exact E|exact Ek].
      f_equal. f_equal. rewrite Vz. set (tail := fun e : str * (str * N * W) => (e, skipn (length (fst e ++ fst (fst (snd e)))) s)).
      assert (TA : forall j p it, nth_error L j = Some (p, it) -> p ++ fst (fst it) ++ skipn (length (p ++ fst (fst it))) s = s).
      { intros j p it EJ. destruct (placed A m s L AL _ _ _ EJ) as (_ & _ & (r & Er) & _). replace (skipn (length (p ++ fst (fst it))) s) with r; [symmetry; exact Er|]. rewrite Er, app_assoc, skipn_app, skipn_all, Nat.sub_diag. reflexivity. }
      rewrite (weighted_occurrences A M zero one inv HX m Hwf s segs id (map (fun i => tail (place_at A L i)) (visited la (seq 0 (blen s))))).
      + transitivity ((freq *K inv (mass s)) *K ksum (map (fun e => mass (fst (fst e)) *K ma_exp M (snd (snd (fst e))) *K mass (snd e)) (filter (fun e => here id (snd (fst e))) (map (fun i => tail (place_at A L i)) (visited la (seq 0 (blen s))))))); [|ring].
        f_equal. revert VI. clear - HH. induction (visited la (seq 0 (blen s))) as [|i l IH]; intros VI; [reflexivity|]. destruct (VI i (or_introl eq_refl)) as (j & [p [[x id'] w]] & -> & EJ). cbn [map filter].
        unfold is_id at 1. rewrite (at_node A m s la L HH _ _ _ _ _ EJ), (place_is A L _ _ EJ). cbn [ln_id lnode_new]. unfold here at 1, tail at 1. cbn [fst snd]. destruct (N.eqb id id').
        * cbn [map]. unfold MarginalSpec.ksum in *. cbn [fold_right]. rewrite IH by (intros i' Hi'; apply VI; right; exact Hi'). f_equal. rewrite (sc_place A M zero m s la L HH _ _ _ EJ). cbn [MarginalProofs3.before_of MarginalProofs3.after_of]. rewrite EJ. reflexivity.
        * apply IH. intros i' Hi'. apply VI. right. exact Hi'.
      + exact AS.
      + apply nodup_map_inj; [apply (visited_nodup A m s la L HH)|]. intros a b Ha Hb EQ. destruct (VI a Ha) as (j & e1 & -> & E1). destruct (VI b Hb) as (j' & e2 & -> & E2). rewrite (place_is A L _ _ E1), (place_is A L _ _ E2) in EQ. unfold tail in EQ. injection EQ as EQ _. subst e2.
        rewrite NoDup_nth_error in ND. do 2 f_equal. apply ND; [apply nth_error_Some; congruence|congruence].
      + intros p it q. rewrite in_map_iff. split.
        * intros (i & EI & Hi). destruct (VI i Hi) as (j & [p1 it1] & -> & EJ). rewrite (place_is A L _ _ EJ) in EI. unfold tail in EI. cbn [fst snd] in EI. injection EI as <- <- <-. split; [apply (placed A m s L AL _ _ _ EJ)|apply (TA _ _ _ EJ)].
        * intros [IO EP]. assert (IL : In (p, it) L). { apply AL. split; [|split; [exact IO|exists q; auto]]. rewrite <- EP, !blen_app. pose proof (item_text A m it IO) as NE. destruct (fst (fst it)) as [|c r]; [congruence|]. pose proof (len_utf8_pos c). cbn. lia. }
          apply In_nth_error in IL. destruct IL as (j & EJ). exists (S (S j)). split; [|apply (visited_in A m s la L HH AL); eauto]. rewrite (place_is A L _ _ EJ). unfold tail. cbn [fst snd]. f_equal. pose proof (TA _ _ _ EJ) as T. rewrite <- EP in T at 2. apply app_inv_head in T. apply app_inv_head in T. exact T.
  Qed.

  (** ** Samples *)
  Context (theta : K) (Ht : forall x, ma_scale M theta x = x).

  Lemma inv_one : inv one = one.
  Proof. pose proof (xm_inv _ _ _ _ _ HX (a_zero A)) as E. rewrite (xm_zero _ _ _ _ _ HX) in E. rewrite <- E at 2. ring. Qed.

  Lemma weights_spec alpha z ends : (forall i, i < length nodes -> right M before_of alpha i) -> (forall l, In l ends -> l < length nodes) ->
    weights_of A M nodes alpha theta z ends = Ok (map (fun l => ma_exp M (ma_sub M (a_add A (nth l alpha z) (nth l (map (@ln_score W) nodes) z)) z)) ends) /\
    forall l, In l ends -> ma_exp M (ma_sub M (a_add A (nth l alpha z) (nth l (map (@ln_score W) nodes) z)) z) = inv (ma_exp M z) *K (sc l *K before_of l).
  Proof.
    intros RA HE. split.
    - induction ends as [|l ends IH]; [reflexivity|]. cbn [weights_of map]. destruct (nth_some nodes l) as (n & En); [apply HE; left; reflexivity|]. destruct (RA l) as (a & Ea & _); [apply HE; left; reflexivity|].
      rewrite En, Ea. cbn [of_option bind]. rewrite IH by (intros l' H'; apply HE; right; exact H'). cbn [bind]. rewrite Ht, (nth_error_nth _ _ z Ea), (nth_error_nth _ _ z (map_nth_error (@ln_score W) _ _ En)). reflexivity.
    - intros l Hl. destruct (nth_some nodes l (HE l Hl)) as (n & En). destruct (RA l (HE l Hl)) as (a & Ea & Va). rewrite (nth_error_nth _ _ z Ea), (nth_error_nth _ _ z (map_nth_error (@ln_score W) _ _ En)).
      rewrite (xm_sub _ _ _ _ _ HX), (xm_add _ _ _ _ _ HX), Va, (sc_spec M zero la l n En). ring.
  Qed.

  (** The weights at a node: their sum is 1. *)
  Lemma sample_weights_spec node n ends : 0 < node -> nth_error nodes node = Some n -> nth_error (la_end la) (ln_pos n) = Some ends ->
    exists ws, sample_weights A M la theta node = Ok (ends, ws) /\ ksum ws = one /\ length ws = length ends /\
      forall i l w, nth_error ends i = Some l -> nth_error ws i = Some w -> w *K before_of node = sc l *K before_of l.
  Proof.
    intros PN En EE. unfold sample_weights.
    destruct (forward_spec A M zero one inv HX m Hwf s la L HH AL ND HP HU (ma_scale M theta)) as (alpha & -> & LA & RA); [intros x; rewrite Ht; reflexivity|]. cbn [bind]. rewrite En. cbn [of_option bind].
    assert (LN : node < length nodes) by (apply nth_error_Some; congruence). destruct (RA node LN) as (z & Ez & Vz). rewrite Ez, EE. cbn [of_option bind].
    destruct (weights_spec alpha z ends RA) as (EW & VW); [intros l Hl; eapply ends_low; eauto|]. rewrite EW. cbn [bind]. eexists. split; [reflexivity|].
    assert (SUM : ksum (map (fun l => sc l *K before_of l) ends) = before_of node).
    { assert (PB : ln_pos n <= blen s /\ forall ts, nth_error (la_begin la) (ln_pos n) = Some ts -> In node ts).
      { destruct (node_at A m s la L HH _ _ En) as [(-> & _)|[(-> & EP & _)|(j & p & x & id & w & -> & EJ & ->)]]; [lia| |].
        - rewrite EP. split; [lia|]. intros ts Et. apply (ho_begin _ _ _ _ _ HH _ _ _ Et). auto.
        - cbn. destruct (placed A m s L AL _ _ _ EJ) as (B & _). split; [lia|]. intros ts Et. apply (ho_begin _ _ _ _ _ HH _ _ _ Et). right. eauto 8. }
      destruct PB as [PB1 PB2]. assert (SQ : seq 0 (S (blen s)) = seq 0 (ln_pos n) ++ ln_pos n :: seq (S (ln_pos n)) (blen s - ln_pos n)).
      { replace (S (blen s)) with (ln_pos n + S (blen s - ln_pos n)) by lia. rewrite seq_app. reflexivity. }
      destruct (step_forward A M zero one inv HX m Hwf s la L HH AL ND HP HU _ _ _ SQ) as (ts & fs & E1 & E2 & ST). rewrite EE in E2. injection E2 as <-. specialize (PB2 _ E1).
      destruct ST as (f & from & first & -> & _ & _ & _ & T); [intros ->; destruct PB2|]. apply T. exact PB2. }
    split; [|split].
    - transitivity (inv (ma_exp M z) *K ksum (map (fun l => sc l *K before_of l) ends)).
      + rewrite <- (ksum_scale A M zero one inv HX). apply ksum_ext. exact VW.
      + rewrite SUM, <- Vz. transitivity (ma_exp M z *K inv (ma_exp M z)); [ring|]. apply (xm_inv _ _ _ _ _ HX).
    - apply map_length.
    - intros i l w Ei Ew. rewrite nth_error_map, Ei in Ew. injection Ew as <-. rewrite VW by (eapply nth_error_In; eauto). rewrite <- Vz. transitivity ((ma_exp M z *K inv (ma_exp M z)) *K (sc l *K before_of l)); [ring|]. rewrite (xm_inv _ _ _ _ _ HX). ring.
  Qed.

  Definition product (path : list nat) : K := fold_right (fun l k => sc l *K k) one path.
  Lemma drawn_value node path c : drawn A M zero inv la theta 0 node path c -> 0 < node -> (exists n, nth_error nodes node = Some n) -> c *K before_of node = product path.
  Proof.
    induction 1 as [node ends ws i c E Ei Ed|node ends ws i l c path c' E Ei NB Ed D IH]; intros PN (n & En).
    - assert (EE : exists ends', nth_error (la_end la) (ln_pos n) = Some ends').
      { unfold sample_weights in E. destruct (forward A M (ma_scale M theta) la) as [al| |]; try discriminate. cbn [bind] in E. rewrite En in E. cbn [of_option bind] in E. destruct (nth_error al node); [|discriminate]. cbn [of_option bind] in E. destruct (nth_error (la_end la) (ln_pos n)); [eauto|discriminate]. }
      destruct EE as (ends' & EE). destruct (sample_weights_spec node n ends' PN En EE) as (ws' & E' & S1 & LW & V). rewrite E in E'. injection E' as <- <-. unfold draw in Ed. destruct (nth_error ws i) as [w|] eqn:Ew; [|discriminate]. injection Ed as <-.
      rewrite S1, inv_one. transitivity (w *K before_of node); [ring|]. rewrite (V i 0 w Ei Ew), (sc_ends A M zero one inv HX m s la L HH HP 0) by auto. cbn. ring.
    - assert (EE : exists ends', nth_error (la_end la) (ln_pos n) = Some ends').
      { unfold sample_weights in E. destruct (forward A M (ma_scale M theta) la) as [al| |]; try discriminate. cbn [bind] in E. rewrite En in E. cbn [of_option bind] in E. destruct (nth_error al node); [|discriminate]. cbn [of_option bind] in E. destruct (nth_error (la_end la) (ln_pos n)); [eauto|discriminate]. }
      destruct EE as (ends' & EE). destruct (sample_weights_spec node n ends' PN En EE) as (ws' & E' & S1 & LW & V). rewrite E in E'. injection E' as <- <-. unfold draw in Ed. destruct (nth_error ws i) as [w|] eqn:Ew; [|discriminate]. injection Ed as <-.
      assert (IL : In l ends) by (eapply nth_error_In; eauto). destruct (nth_some nodes l) as (nl & Enl); [eapply ends_low; eauto|].
      rewrite S1, inv_one. transitivity ((w *K before_of node) *K c'); [ring|]. rewrite (V i l w Ei Ew). cbn [product fold_right]. fold (product path). rewrite <- IH; [ring|lia|eauto].
  Qed.

  Lemma product_chain p path seg : chain s L p path seg -> product path = likelihood M one seg.
  Proof. induction 1 as [|j p x id w path seg E C IH]; [reflexivity|]. cbn [product fold_right likelihood]. fold (product path). rewrite IH, (sc_place A M zero m s la L HH _ _ _ E). reflexivity. Qed.
  Lemma product_app a b : product (a ++ b) = product a *K product b.
  Proof. induction a as [|x a IH]; [change (product b = one *K product b); ring|]. change (sc x *K product (a ++ b) = sc x *K product a *K product b). rewrite IH. ring. Qed.
  Lemma product_rev a : product (rev a) = product a.
  Proof. induction a as [|x a IH]; [reflexivity|]. cbn [rev]. rewrite product_app, IH. change (product a *K (sc x *K one) = sc x *K product a). ring. Qed.

  Lemma pos_node j p x id w : nth_error L j = Some (p, (x, id, w)) -> nth_error nodes (S (S j)) = Some (lnode_new A id (blen p) (blen x) w).
  Proof. apply (at_node A m s la L HH). Qed.

  (** The way from the start of the text to the end of [p], the last node first. *)
  Inductive walk : str -> list nat -> Prop :=
  | walk_nil : walk [] []
  | walk_cons : forall j p x id w r, nth_error L j = Some (p, (x, id, w)) -> walk p r -> walk (p ++ x) (S (S j) :: r).
  Lemma chain_walk p path seg : chain s L p path seg -> forall r, walk p r -> walk s (rev path ++ r).
  Proof.
    induction 1 as [|j p x id w path seg E C IH]; intros r HW; [exact HW|]. cbn [rev]. rewrite <- app_assoc. apply IH. econstructor; eauto.
  Qed.
  Lemma walk_chain p r : walk p r -> forall path seg, chain s L p path seg -> exists seg', chain s L [] (rev r ++ path) seg'.
  Proof.
    induction 1 as [|j p x id w r E HW IH]; intros path seg C; [exists seg; exact C|]. cbn [rev]. rewrite <- app_assoc. cbn [app]. eapply IH. econstructor; eauto.
  Qed.

  Lemma ends_place j p x id w : nth_error L j = Some (p, (x, id, w)) -> exists ends i, nth_error (la_end la) (blen (p ++ x)) = Some ends /\ nth_error ends i = Some (S (S j)).
  Proof.
    intros E. destruct (placed A m s L AL _ _ _ E) as (_ & _ & (r & Er) & _). cbn [fst] in Er. destruct (nth_some (la_end la) (blen (p ++ x))) as (ends & EE); [rewrite (ho_lene _ _ _ _ _ HH), Er, app_assoc, (blen_app (p ++ x)); lia|].
    exists ends. assert (I : In (S (S j)) ends) by (apply (ho_end _ _ _ _ _ HH _ _ _ EE); right; exists j, p, (x, id, w); auto). apply In_nth_error in I. destruct I as (i & I). eauto.
  Qed.
  Lemma ends_start : exists ends i, nth_error (la_end la) 0 = Some ends /\ nth_error ends i = Some 0.
  Proof. destruct (ho_bos _ _ _ _ _ HH) as (l & E). exists (0 :: l), 0. auto. Qed.

  Lemma drawn_exists p r : walk p r -> forall node n, ln_pos n = blen p -> 0 < node -> nth_error nodes node = Some n -> exists c, drawn A M zero inv la theta 0 node r c.
  Proof.
    induction 1 as [|j p x id w r E HW IH]; intros node n EP PN En.
    - destruct ends_start as (ends & i & EE & Ei). destruct (sample_weights_spec node n ends PN En ltac:(rewrite EP; exact EE)) as (ws & ES & _ & LW & _). destruct (nth_some ws i) as (k & Ek); [rewrite LW; apply nth_error_Some; congruence|].
      eexists. eapply drawn_bos; [exact ES|exact Ei|]. unfold draw. rewrite Ek. reflexivity.
    - destruct (ends_place _ _ _ _ _ E) as (ends & i & EE & Ei). destruct (sample_weights_spec node n ends PN En ltac:(rewrite EP; exact EE)) as (ws & ES & _ & LW & _). destruct (nth_some ws i) as (k & Ek); [rewrite LW; apply nth_error_Some; congruence|].
      destruct (IH (S (S j)) (lnode_new A id (blen p) (blen x) w) eq_refl ltac:(lia) (pos_node _ _ _ _ _ E)) as (c' & D).
      eexists. eapply drawn_node; [exact ES|exact Ei|lia| |exact D]. unfold draw. rewrite Ek. reflexivity.
  Qed.

  Lemma drawn_ends node ends ws n : sample_weights A M la theta node = Ok (ends, ws) -> nth_error nodes node = Some n -> nth_error (la_end la) (ln_pos n) = Some ends.
  Proof.
    unfold sample_weights. intros E En. destruct (forward A M (ma_scale M theta) la) as [al| |]; try discriminate. cbn [bind] in E. rewrite En in E. cbn [of_option bind] in E. destruct (nth_error al node); [|discriminate]. cbn [of_option bind] in E.
    destruct (nth_error (la_end la) (ln_pos n)); [|discriminate]. cbn [of_option bind] in E. destruct (weights_of _ _ _ _ _ _ _); try discriminate. cbn [bind] in E. injection E as -> _. reflexivity.
  Qed.
  Lemma drawn_walk node r c : drawn A M zero inv la theta 0 node r c -> forall n p q, nth_error nodes node = Some n -> ln_pos n = blen p -> s = p ++ q -> walk p r.
  Proof.
    induction 1 as [node ends ws i c E Ei Ed|node ends ws i l c path c' E Ei NB Ed D IH]; intros n p q En EP Es; pose proof (drawn_ends _ _ _ _ E En) as EE; rewrite EP in EE; apply nth_error_In in Ei; apply (ho_end _ _ _ _ _ HH _ _ _ EE) in Ei.
    - destruct Ei as [[_ Z]|(j & p' & it & X & _)]; [|discriminate]. apply blen_0 in Z. subst p. constructor.
    - destruct Ei as [[-> _]|(j & p' & [[x id] w] & -> & EL & EB)]; [congruence|]. cbn [fst] in EB. destruct (placed A m s L AL _ _ _ EL) as (_ & _ & (r & Er) & _). cbn [fst] in Er.
      assert (EQ : p = p' ++ x). { pose proof Er as Er2. rewrite Es, app_assoc in Er2. apply blen_split_eq in Er2; [tauto|exact EB]. }
      rewrite EQ. econstructor; [exact EL|]. eapply IH; [apply (pos_node _ _ _ _ _ EL)|reflexivity|exact Er].
  Qed.

  (** The loop of [lat_sample] returns each way for some picks. *)
  Lemma walk_long p r : walk p r -> length r <= blen p.
  Proof.
    induction 1 as [|j p x id w r E HW IH]; [reflexivity|]. destruct (placed A m s L AL _ _ _ E) as (_ & _ & _ & NE). cbn [fst] in NE. rewrite blen_app. destruct x as [|ch x]; [congruence|]. pose proof (len_utf8_pos ch). cbn. lia.
  Qed.
  Lemma walk_picked p r : walk p r -> forall node n, ln_pos n = blen p -> nth_error nodes node = Some n ->
    exists is, length is = S (length r) /\ forall fuel acc pick, length r < fuel -> (forall k, k < length is -> pick (length acc + k) = nth k is 0) -> sample_loop fuel la pick (u_bos m) node acc = Ok (rev (acc ++ r)).
  Proof.
    induction 1 as [|j p x id w r E HW IH]; intros node n EP En.
    - destruct ends_start as (ends & i & EE & Ei). exists [i]. split; [reflexivity|]. intros [|fuel] acc pick LF HK; [lia|]. cbn [sample_loop]. rewrite En. cbn [of_option bind]. rewrite EP. cbn [blen]. rewrite EE. cbn [of_option bind].
      specialize (HK 0 ltac:(cbn; lia)). rewrite Nat.add_0_r in HK. rewrite HK. cbn [nth]. rewrite Ei. cbn [of_option bind]. rewrite (ho_nodes _ _ _ _ _ HH). cbn [nth_error of_option bind ln_id lnode_new]. rewrite N.eqb_refl, app_nil_r. reflexivity.
    - destruct (ends_place _ _ _ _ _ E) as (ends & i & EE & Ei). destruct (IH (S (S j)) (lnode_new A id (blen p) (blen x) w) eq_refl (pos_node _ _ _ _ _ E)) as (is & LI & HS). exists (i :: is). split; [cbn; lia|]. intros [|fuel] acc pick LF HK; [lia|]. cbn [length] in LF.
      cbn [sample_loop]. rewrite En. cbn [of_option bind]. rewrite EP, EE. cbn [of_option bind]. pose proof (HK 0 ltac:(cbn; lia)) as H0. rewrite Nat.add_0_r in H0. rewrite H0. cbn [nth]. rewrite Ei. cbn [of_option bind]. rewrite (pos_node _ _ _ _ _ E). cbn [of_option bind ln_id lnode_new].
      pose proof (ids_low A m Hwf s _ _ _ _ _ _ AL E) as LO. rewrite (wf_bos m Hwf). replace (N.eqb id (N.of_nat (length (u_vocab m)) + 1)) with false by (symmetry; apply N.eqb_neq; lia). rewrite <- (wf_bos m Hwf).
      rewrite (HS fuel (acc ++ [S (S j)]) pick); [rewrite <- app_assoc; reflexivity|lia|]. intros k Hk. rewrite app_length. cbn [length]. replace (length acc + 1 + k) with (length acc + S k) by lia. rewrite HK by (cbn; lia). reflexivity.
  Qed.
  Lemma walk_sampled r : walk s r -> exists pick, lat_sample la pick = Ok (rev r).
  Proof.
    intros HW. unfold lat_sample. rewrite (ho_s _ _ _ _ _ HH). destruct (Nat.eqb_spec (blen s) 0) as [Z|Z].
    - exists (fun k => k). pose proof (walk_long _ _ HW). destruct r; [reflexivity|cbn in *; lia].
    - rewrite (bos_is A m s la L HH). cbn [bind]. rewrite (ho_nodes _ _ _ _ _ HH). cbn [nth_error of_option bind]. rewrite (eos_is A m s la L HH). cbn [bind ln_id lnode_new].
      destruct (walk_picked s r HW 1 (lnode_new A (u_eos m) (blen s) 0 (a_zero A))) as (is & LI & HS); [reflexivity|rewrite (ho_nodes _ _ _ _ _ HH); reflexivity|]. exists (fun k => nth k is 0). apply (HS _ [] _); [pose proof (walk_long _ _ HW); lia|]. intros k Hk. reflexivity.
  Qed.

  Lemma eos_at : exists n, nth_error nodes 1 = Some n /\ ln_pos n = blen s.
  Proof. rewrite (ho_nodes _ _ _ _ _ HH). eexists. split; reflexivity. Qed.
  Lemma mass_inv : mass s *K inv (mass s) = one.
  Proof.
    destruct (forward_spec A M zero one inv HX m Hwf s la L HH AL ND HP HU (fun x => x) (fun x => eq_refl)) as (alpha & _ & _ & RA). destruct (RA 1) as (z & _ & Vz); [rewrite (nodes_length A m s la L HH); lia|]. cbn [MarginalProofs3.before_of] in Vz. rewrite <- Vz. apply (xm_inv _ _ _ _ _ HX).
  Qed.
  Lemma chance_value path c : chance A M zero inv la theta path c -> exists seg, chain s L [] path seg /\ c = likelihood M one seg *K inv (mass s).
  Proof.
    intros (eos & bos & E1 & E2 & D). rewrite (eos_is A m s la L HH) in E1. injection E1 as <-. rewrite (bos_is A m s la L HH) in E2. injection E2 as <-. destruct eos_at as (n & En & EP).
    pose proof (drawn_walk _ _ _ D n s [] En EP ltac:(rewrite app_nil_r; reflexivity)) as HW. destruct (walk_chain _ _ HW [] [] (chain_nil s L)) as (seg & C). rewrite rev_involutive, app_nil_r in C. exists seg. split; [exact C|].
    pose proof (drawn_value _ _ _ D ltac:(lia) ltac:(eauto)) as V. cbn [MarginalProofs3.before_of] in V. rewrite product_rev, (product_chain _ _ _ C) in V. rewrite <- V. transitivity (c *K (mass s *K inv (mass s))); [rewrite mass_inv; ring|ring].
  Qed.
  Lemma chance_exists path seg : chain s L [] path seg -> chance A M zero inv la theta path (likelihood M one seg *K inv (mass s)).
  Proof.
    intros C. pose proof (chain_walk _ _ _ C [] walk_nil) as HW. rewrite app_nil_r in HW. destruct eos_at as (n & En & EP). destruct (drawn_exists _ _ HW 1 n EP ltac:(lia) En) as (c & D).
    assert (CH : chance A M zero inv la theta path c) by (exists 1, 0; split; [apply (eos_is A m s la L HH)|]; split; [apply (bos_is A m s la L HH)|exact D]).
    destruct (chance_value _ _ CH) as (seg' & C' & V). rewrite (chain_fun s L _ _ _ C' _ _ C) in V. subst c. exact CH.
  Qed.
End expected.
