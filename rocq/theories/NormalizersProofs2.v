(** Precompiled charts, sequences, and the BERT guarantees. *)
From Coq Require Import ZArith.
From Verif Require Import Base ListFacts StrBytes Utf8 NormModel NormSpec NormProofs NormProofs2 NormProofs3 NormProofs4 NormProofs5 NormProofs6
  PatternModel PatternSpec NormProps ByteLevelModel DecodersModel DecodersSpec DecodersProofs2 NormalizersModel NormalizersSpec NormalizersProofs.

(** ** Precompiled *)
(** The changes for one piece of [n] characters. *)
Fixpoint piece_changes (n : nat) (new : str) : list (char * Z) :=
  match new with
  | [] => []
  | c :: new' =>
      match n with
      | 0 => (c, 1%Z) :: piece_changes 0 new'
      | S k => match new' with
               | [] => [(c, (- Z.of_nat k)%Z)]
               | _ => (c, 0%Z) :: piece_changes k new'
               end
      end
  end.

Lemma piece_zero new : piece_changes 0 new = map (fun c => (c, 1%Z)) new.
Proof. induction new as [|c new IH]; [reflexivity|]. cbn [piece_changes map]. rewrite IH. reflexivity. Qed.

Lemma piece_grow new : forall n, n <= length new -> piece_changes n new = map (fun c => (c, 0%Z)) (firstn n new) ++ map (fun c => (c, 1%Z)) (skipn n new).
Proof.
  induction new as [|c new IH]; intros n L.
  - destruct n; reflexivity.
  - destruct n as [|n]; [exact (piece_zero (c :: new))|]. cbn [length] in L. cbn [piece_changes firstn skipn map app]. destruct new as [|d new].
    + cbn [length] in L. assert (n = 0) as -> by lia. reflexivity.
    + rewrite IH by lia. reflexivity.
Qed.

Lemma piece_shrink new c : forall n, S (length new) <= n -> piece_changes n (new ++ [c]) = map (fun c => (c, 0%Z)) new ++ [(c, (Z.of_nat (S (length new)) - Z.of_nat n)%Z)].
Proof.
  induction new as [|d new IH]; intros n L; cbn [app length] in *.
  - destruct n as [|n]; [lia|]. cbn [piece_changes map app]. do 2 f_equal. lia.
  - destruct n as [|n]; [lia|]. cbn [piece_changes map app]. rewrite IH by lia.
    destruct (new ++ [c]) as [|x l] eqn:E; [destruct new; discriminate|]. do 4 f_equal. lia.
Qed.

Lemma set_first_app a : forall b, set_first (length a) (a ++ b) = map (fun x => (fst x, 1%Z)) a ++ b.
Proof. induction a as [|[c z] a IH]; intros b; [destruct b; reflexivity|]. cbn [length app set_first map fst]. rewrite IH. reflexivity. Qed.

Lemma pre_replace_piece racc old new : new <> [] -> pre_replace racc old new = rev (piece_changes (length old) new) ++ racc.
Proof.
  intros N. unfold pre_replace. cbv zeta. destruct (0 <? _)%Z eqn:E1; [|destruct (_ <? 0)%Z eqn:E2].
  - rewrite piece_grow by lia. rewrite rev_app_distr, <- app_assoc, <- !map_rev.
    assert (X : rev new = rev (skipn (length old) new) ++ rev (firstn (length old) new)) by (rewrite <- rev_app_distr, firstn_skipn; reflexivity).
    rewrite X, map_app, <- app_assoc.
    match goal with |- set_first ?k (?a ++ ?b) = _ => replace k with (length a) by (rewrite map_length, rev_length, skipn_length; lia) end.
    rewrite set_first_app, map_map. reflexivity.
  - destruct new as [|c new _] using rev_ind; [congruence|]. rewrite app_length in *. cbn [length] in *. rewrite piece_shrink by lia.
    rewrite map_app, !rev_app_distr. cbn [map rev app]. do 2 f_equal. lia.
  - assert (L : length new = length old) by lia. rewrite piece_grow by lia. rewrite <- L, firstn_all, skipn_all. cbn [map]. rewrite app_nil_r. reflexivity.
Qed.

Lemma pre_replace_nil racc old : old <> [] -> pre_replace racc old [] = match racc with [] => [] | (c, cs) :: l => (c, (cs - Z.of_nat (length old))%Z) :: l end.
Proof.
  intros N. unfold pre_replace. cbv zeta. cbn [length map rev app]. replace (0 <? _)%Z with false by lia. replace (_ <? 0)%Z with true by (destruct old; [congruence|cbn [length]; lia]).
  destruct racc as [|[c cs] l]; [reflexivity|]. do 2 f_equal.
Qed.

(** How much of the text a list of changes uses. *)
Definition modest (l : list (char * Z)) : Prop := Forall (fun x => (snd x <= 1)%Z) l.
Fixpoint used (l : list (char * Z)) : Z :=
  match l with
  | [] => 0
  | (_, cs) :: l' => (1 - cs + used l')%Z
  end.
Lemma used_app a b : used (a ++ b) = (used a + used b)%Z.
Proof. induction a as [|[c z] a IH]; [reflexivity|]. cbn [used app]. rewrite IH. lia. Qed.
Lemma used_rev a : used (rev a) = used a.
Proof. induction a as [|[c z] a IH]; [reflexivity|]. cbn [used rev]. rewrite used_app, IH. cbn [used]. lia. Qed.
Lemma used_pos a : modest a -> (0 <= used a)%Z.
Proof. induction 1 as [|[c z] a H _ IH]; [reflexivity|]. cbn [used snd] in *. lia. Qed.

Lemma used_fit d : forall n, modest d -> (used d <= Z.of_nat n)%Z -> changes_fit n d.
Proof.
  induction d as [|[c ch] d IH]; intros n M U; [exact Logic.I|]. cbn [changes_fit used] in *. inversion M as [|? ? M1 M2]; subst. cbn [snd] in M1.
  pose proof (used_pos d M2). destruct (0 <? ch)%Z eqn:E; [apply IH; [exact M2|lia]|]. split; [lia|]. apply IH; [exact M2|lia].
Qed.

Lemma piece_facts new : forall n, new <> [] -> n <> 0 -> modest (piece_changes n new) /\ used (piece_changes n new) = Z.of_nat n /\ starts_by_replacing (piece_changes n new) /\ map fst (piece_changes n new) = new.
Proof.
  induction new as [|c new IH]; intros n N Z; [congruence|]. destruct n as [|n]; [congruence|]. cbn [piece_changes]. destruct new as [|d new].
  - cbn [used map fst]. split; [constructor; [cbn [snd]; lia|constructor]|]. split; [lia|]. split; [cbn; lia|reflexivity].
  - destruct n as [|n].
    + rewrite piece_zero. split; [|split; [|split; [cbn; lia|]]].
      * constructor; [cbn; lia|]. apply Forall_forall. intros x Hx. apply in_map_iff in Hx. destruct Hx as (y & <- & _). cbn; lia.
      * cbn [used]. assert (X : forall l : str, used (map (fun c => (c, 1%Z)) l) = 0%Z) by (induction l as [|x l H]; [reflexivity|cbn [used map]; rewrite H; reflexivity]). rewrite X. lia.
      * cbn [map fst]. rewrite map_map. cbn [fst]. rewrite map_id. reflexivity.
    + destruct (IH (S n) ltac:(discriminate) ltac:(discriminate)) as (H1 & H2 & H3 & H4). split; [constructor; [cbn; lia|exact H1]|]. split; [cbn [used]; rewrite H2; lia|].
      split; [cbn; lia|]. cbn [map fst]. rewrite H4. reflexivity.
Qed.

(** The invariant of the accumulated (reversed) changes. *)
Definition acc_ok (n : nat) (t : str) (racc : list (char * Z)) : Prop :=
  modest racc /\ (used racc <= Z.of_nat n)%Z /\ starts_by_replacing (rev racc) /\ map fst (rev racc) = t.

Lemma starts_app a b : starts_by_replacing a -> starts_by_replacing b -> starts_by_replacing (a ++ b).
Proof. destruct a as [|[c z] a]; auto. Qed.

Lemma acc_replace n t racc old new : acc_ok n t racc -> old <> [] -> acc_ok (n + length old) (t ++ new) (pre_replace racc old new).
Proof.
  intros (M & U & B & TX) N. destruct new as [|c new].
  - rewrite pre_replace_nil by exact N. rewrite app_nil_r. destruct racc as [|[c cs] l].
    + split; [constructor|]. split; [cbn [used]; lia|]. split; [exact Logic.I|exact TX].
    + inversion M as [|? ? M1 M2]; subst. cbn [snd used] in *. split; [constructor; [cbn [snd]; lia|exact M2]|]. split; [cbn [used]; lia|]. cbn [rev] in *. split.
      * destruct (rev l) as [|[x z] r]; cbn [app starts_by_replacing] in *; [lia|exact B].
      * rewrite !map_app. reflexivity.
  - rewrite pre_replace_piece by discriminate. destruct (piece_facts (c :: new) (length old) ltac:(discriminate)) as (H1 & H2 & H3 & H4); [destruct old; [congruence|discriminate]|].
    split; [apply Forall_app; split; [apply Forall_rev; exact H1|exact M]|]. split; [rewrite used_app, used_rev, H2; lia|].
    rewrite rev_app_distr, rev_involutive. split; [apply starts_app; assumption|]. rewrite map_app, TX, H4. reflexivity.
Qed.

Definition replaying (pieces : list (ranged * str)) (racc : list (char * Z)) : list (char * Z) :=
  fold_left (fun acc p => pre_replace acc (ctext (fst p)) (snd p)) pieces racc.

Lemma keep_char racc c : (c, 0%Z) :: racc = pre_replace racc [c] [c].
Proof. rewrite pre_replace_piece by discriminate. reflexivity. Qed.

Section precompiled.
  Context (chart : str -> option str).

  Definition one_by_one (ca : char * (nat * nat)) : ranged * str := ([ca], match chart [fst ca] with Some x => x | None => [fst ca] end).
  Definition untouched (ca : char * (nat * nat)) : ranged * str := ([ca], [fst ca]).

  Lemma pre_chars_replay g : forall m racc,
    snd (pre_chars chart (ctext g) m racc) = replaying (map one_by_one g) racc /\
    (fst (pre_chars chart (ctext g) m racc) = false -> m = false /\ map one_by_one g = map untouched g).
  Proof.
    induction g as [|ca g IH]; intros m racc; [split; [reflexivity|auto]|]. rewrite ctext_cons. cbn [pre_chars map]. unfold replaying in *. cbn [fold_left]. assert (O : one_by_one ca = ([ca], match chart [fst ca] with Some x => x | None => [fst ca] end)) by reflexivity. rewrite O. clear O. cbn [fst snd].
    destruct (chart [fst ca]) as [x|].
    - destruct (IH true (pre_replace racc [fst ca] x)) as [H1 H2]. split; [exact H1|]. intros H. destruct (H2 H); discriminate.
    - destruct (IH m ((fst ca, 0%Z) :: racc)) as [H1 H2]. split; [rewrite H1, keep_char; reflexivity|]. intros H. destruct (H2 H) as [-> ->]. auto.
  Qed.

  Lemma pre_graphemes_replay gs : forall m racc,
    snd (pre_graphemes chart (map ctext gs) m racc) = replaying (flat_map (charted chart) gs) racc /\
    (fst (pre_graphemes chart (map ctext gs) m racc) = false -> m = false /\ flat_map (charted chart) gs = map untouched (concat gs)).
  Proof.
    induction gs as [|g gs IH]; intros m racc; [split; [reflexivity|auto]|]. cbn [map pre_graphemes flat_map concat]. unfold charted at 1 3.
    destruct (if blen (ctext g) <? 6 then chart (ctext g) else None) as [x|].
    - destruct (IH true (pre_replace racc (ctext g) x)) as [H1 H2]. split; [exact H1|]. intros H. destruct (H2 H); discriminate.
    - destruct (pre_chars_replay g m racc) as [H1 H2]. destruct (pre_chars chart (ctext g) m racc) as [m' racc'] eqn:E. cbn [fst snd] in *. fold one_by_one in *.
      destruct (IH m' racc') as [H3 H4]. split.
      + rewrite H3, H1. unfold replaying. rewrite fold_left_app. reflexivity.
      + intros H. destruct (H4 H) as [-> E4]. destruct (H2 eq_refl) as [-> E2]. split; [reflexivity|].
        rewrite E4, map_app. f_equal. exact E2.
  Qed.

  Lemma charted_facts gs : Forall (fun g : ranged => g <> []) gs ->
    concat (map fst (flat_map (charted chart) gs)) = concat gs /\ Forall (fun p : ranged * str => fst p <> []) (flat_map (charted chart) gs).
  Proof.
    induction 1 as [|g gs N _ [IH1 IH2]]; [split; [reflexivity|constructor]|]. cbn [flat_map concat]. rewrite map_app, concat_app, IH1, Forall_app. unfold charted.
    destruct (if blen (ctext g) <? 6 then chart (ctext g) else None) as [x|]; cbn [map concat fst].
    - rewrite app_nil_r. split; [reflexivity|]. split; [repeat constructor; exact N|exact IH2].
    - rewrite map_map. cbn [fst]. split; [f_equal; clear; induction g as [|ca g IH]; [reflexivity|cbn [map concat app]; rewrite IH; reflexivity]|]. split; [|exact IH2].
      apply Forall_forall. intros p Hp. apply in_map_iff in Hp. destruct Hp as (ca & <- & _). discriminate.
  Qed.
End precompiled.

Lemma replay_ok pieces : forall n t racc, acc_ok n t racc -> Forall (fun p : ranged * str => fst p <> []) pieces ->
  acc_ok (n + length (concat (map fst pieces))) (t ++ concat (map snd pieces)) (replaying pieces racc).
Proof.
  unfold replaying. induction pieces as [|[g x] pieces IH]; intros n t racc A F; cbn [fold_left map concat fst snd].
  - cbn [length]. rewrite Nat.add_0_r, app_nil_r. exact A.
  - inversion F as [|? ? F1 F2]; subst. cbn [fst] in F1. rewrite app_length, Nat.add_assoc, app_assoc. apply IH; [|exact F2].
    rewrite <- (length_ctext g). apply acc_replace; [exact A|]. destruct g; [congruence|discriminate].
Qed.

(** Without deletions, exactly the fitted pieces. *)
Lemma fitted_nil prev new : fitted prev [] new = map (fun c => (c, prev)) new.
Proof. induction new as [|c new IH]; [reflexivity|]. cbn [fitted map]. rewrite IH. reflexivity. Qed.

Lemma changed_piece new : forall prev old rest d, new <> [] ->
  changed prev (piece_changes (length old) new ++ d) (old ++ rest) = fitted prev old new ++ changed (last_al prev old) d rest.
Proof.
  induction new as [|c new IH]; intros prev old rest d N; [congruence|]. destruct old as [|[x a] old].
  - cbn [length]. rewrite fitted_nil, piece_zero, last_al_nil. cbn [app]. clear. revert prev. generalize (c :: new) as l. induction l as [|y l IH]; intros prev; [reflexivity|].
    cbn [map app changed Z.ltb Z.compare]. rewrite IH. reflexivity.
  - cbn [length piece_changes]. destruct new as [|e new].
    + cbn [app changed fitted]. replace (0 <? - Z.of_nat (length old))%Z with false by lia. cbv zeta.
      replace (Z.to_nat (- - Z.of_nat (length old))) with (length old) by lia. cbn [firstn skipn].
      rewrite firstn_app, skipn_app, firstn_all, skipn_all, Nat.sub_diag. cbn [firstn skipn app]. rewrite app_nil_r. reflexivity.
    + cbn [app changed fitted Z.ltb Z.compare]. cbv zeta. cbn [Z.opp Z.to_nat firstn skipn]. rewrite IH by discriminate. rewrite !last_al_cons. cbn [snd]. reflexivity.
Qed.

Lemma replay_fitted pieces : Forall (fun p : ranged * str => snd p <> []) pieces -> forall racc prev,
  Forall (fun p : ranged * str => fst p <> []) pieces -> exists d, rev (replaying pieces racc) = rev racc ++ d /\
    changed prev d (concat (map fst pieces)) = flat_map (fun p : ranged * str => fitted (0, 0) (fst p) (snd p)) pieces.
Proof.
  unfold replaying. induction 1 as [|[g x] pieces N _ IH]; intros racc prev F.
  - exists []. rewrite app_nil_r. split; reflexivity.
  - inversion F as [|? ? F1 F2]; subst. cbn [fold_left map concat fst snd flat_map] in *. rewrite pre_replace_piece by exact N.
    destruct (IH (rev (piece_changes (length (ctext g)) x) ++ racc) (last_al prev g) F2) as (d & E1 & E2).
    exists (piece_changes (length (ctext g)) x ++ d). split; [rewrite E1, rev_app_distr, rev_involutive, <- app_assoc; reflexivity|].
    rewrite length_ctext, changed_piece by exact N. rewrite E2. f_equal. destruct g as [|[y b] g]; [congruence|]. destruct x as [|c x]; [congruence|]. reflexivity.
Qed.

Lemma lift_parts parts cal : ctext cal = concat parts -> exists gs, concat gs = cal /\ map ctext gs = parts.
Proof.
  intros E. destruct (lift_segs (map (fun t => (t, true)) parts) cal) as (cs & E1 & E2 & _); [rewrite map_map; cbn [fst]; rewrite map_id; exact E|].
  exists (map fst cs). split; [symmetry; exact E1|]. rewrite map_map. apply (f_equal (map fst)) in E2. rewrite !map_map in E2. cbn [fst] in E2. rewrite map_id in E2. exact E2.
Qed.

Lemma untouched_fitted cal : flat_map (fun p : ranged * str => fitted (0, 0) (fst p) (snd p)) (map untouched cal) = cal.
Proof. induction cal as [|[c a] cal IH]; [reflexivity|]. cbn [map flat_map untouched fst snd fitted app]. rewrite IH. reflexivity. Qed.

Lemma precompiled_step T chart graphemes : usable (NPrecompiled chart graphemes) -> step (precompiled_normalize chart graphemes) (normalizes T (NPrecompiled chart graphemes)).
Proof.
  intros (UG & UC) orig cal sh (W & S & TX). destruct (UG (ctext cal)) as [Ec Ne].
  destruct (lift_parts (graphemes (ctext cal)) cal (eq_sym Ec)) as (gs & Eg & Em).
  assert (NG : Forall (fun g : ranged => g <> []) gs).
  { rewrite <- Em in Ne. rewrite Forall_forall in Ne |- *. intros g Hg ->. apply (Ne (ctext [])); [apply in_map; exact Hg|reflexivity]. }
  destruct (charted_facts chart gs NG) as [C1 C2]. rewrite Eg in C1.
  destruct (pre_graphemes_replay chart gs false []) as [P1 P2]. unfold precompiled_normalize. cbn [n_normalized show]. rewrite <- Em.
  destruct (pre_graphemes chart (map ctext gs) false []) as [m racc]. cbn [fst snd] in *. subst racc.
  assert (TP : text (concat (map snd (flat_map (charted chart) gs)))).
  { assert (TG : Forall (fun g : ranged => text (ctext g)) gs).
    { rewrite <- Eg in TX. clear -TX. induction gs as [|g gs IH]; [constructor|]. cbn [concat] in TX. unfold text in TX. rewrite ctext_app in TX. apply Forall_app in TX. destruct TX. constructor; [assumption|apply IH; assumption]. }
    clear -TG UC. induction TG as [|g gs H _ IH]; [constructor|]. cbn [flat_map]. rewrite map_app, concat_app. unfold text. apply Forall_app. split; [|exact IH]. unfold charted.
    destruct (if blen (ctext g) <? 6 then chart (ctext g) else None) as [x|] eqn:E; cbn [map concat snd].
    - rewrite app_nil_r. destruct (_ <? 6); [exact (UC _ _ H E)|discriminate].
    - clear E. unfold text in H. induction g as [|ca g IHg]; [constructor|]. rewrite ctext_cons in H. inversion H as [|? ? H1 H2]; subst. cbn [map concat snd]. apply Forall_app. split; [|apply IHg; exact H2].
      destruct (chart [fst ca]) as [x|] eqn:E; [|repeat constructor; exact H1]. apply (UC [fst ca]); [repeat constructor; exact H1|exact E]. }
  destruct m.
  - pose proof (replay_ok (flat_map (charted chart) gs) 0 [] [] ltac:(split; [constructor|]; split; [cbn; lia|]; split; [exact Logic.I|reflexivity]) C2) as (M & U & B & MF).
    cbn [Nat.add app] in U, MF. rewrite C1 in U.
    assert (F : changes_fit (length cal) (rev (replaying (flat_map (charted chart) gs) []))) by (apply used_fit; [apply Forall_rev; exact M|rewrite used_rev; exact U]).
    pose proof (transform_changed orig cal sh _ W S B F) as E.
    destruct (safe_step_ok orig cal sh (MTransform (rev (replaying (flat_map (charted chart) gs) [])) 0) W S) as (o & c & k & E' & W' & S').
    { cbn [safe_op n_normalized show]. rewrite Nat.sub_0_r, length_ctext. auto. }
    cbn [apply_norm_op] in E'. rewrite E in E'. injection E' as E1 E2 E3 E4. pose proof (shows_inj _ _ E2 E3) as E5. subst c o.
    eexists. split; [exact E|]. split.
    + split; [exact W'|]. split; [exact S'|]. rewrite changed_text by exact F. rewrite MF. exact TP.
    + apply nz_precompiled with (gs := gs); [exact Eg|exact Em|rewrite changed_text by exact F; exact MF|].
      intros ND. destruct (replay_fitted _ ND [] (0, 0) C2) as (d & D1 & D2). cbn [rev app] in D1. rewrite D1, <- C1. exact D2.
  - destruct (P2 eq_refl) as [_ P3]. rewrite Eg in P3. exists cal. split; [reflexivity|]. split; [split; [exact W|split; assumption]|].
    apply nz_precompiled with (gs := gs); [exact Eg|exact Em| |].
    + rewrite P3, map_map. cbn [untouched snd]. unfold ctext. clear. induction cal as [|[c a] cal IH]; [reflexivity|]. cbn [map concat app fst]. rewrite IH. reflexivity.
    + intros _. rewrite P3. symmetry. apply untouched_fitted.
Qed.

(** ** All of them *)
Lemma normalize_step T (TO : tables_ok T) : forall n, usable n -> step (normalize T n) (normalizes T n).
Proof.
  induction n using normalizer_ind'; intros U.
  - apply bert_step. exact TO.
  - eapply step_weaken; [apply strip_step|]. cbn beta. intros x y E. constructor. exact E.
  - eapply step_weaken; [apply filter_step|]. cbn beta. intros x y ->. constructor.
  - eapply step_weaken; [apply (form_step _ (ok_nfc T TO))|]. cbn beta. intros x y ->. constructor.
  - eapply step_weaken; [apply (form_step _ (ok_nfd T TO))|]. cbn beta. intros x y ->. constructor.
  - eapply step_weaken; [apply (form_step _ (ok_nfkc T TO))|]. cbn beta. intros x y ->. constructor.
  - eapply step_weaken; [apply (form_step _ (ok_nfkd T TO))|]. cbn beta. intros x y ->. constructor.
  - induction l as [|n l IH]; [eapply step_weaken; [exact step_id|]; cbn beta; intros x y ->; constructor|].
    inversion H as [|? ? H1 H2]; subst. cbn [usable] in U. destruct U as [U1 U2]. specialize (H1 U1). specialize (IH H2 U2).
    eapply step_weaken; [exact (step_seq _ _ _ _ H1 IH)|]. cbn beta. intros x y (m & R1 & R2). econstructor; eauto.
  - eapply step_weaken; [apply lower_step; exact TO|]. cbn beta. intros x y ->. constructor.
  - apply nmt_step.
  - apply precompiled_step. exact U.
  - apply replace_step. exact U.
  - apply prepend_step. exact U.
  - apply byte_step.
Qed.

(** ** Isolation *)
Section isolation.
  Context (K : char -> Prop) (K_dec : forall c, {K c} + {~ K c}).

  Lemma isolated_free s : Forall (fun c => ~ K c) s -> isolated K s.
  Proof. intros F p c q -> H. exfalso. rewrite Forall_forall in F. apply (F c); [apply in_or_app; right; left; reflexivity|exact H]. Qed.

  Lemma isolated_app a b : isolated K a -> isolated K b -> isolated K (a ++ b).
  Proof.
    intros A B p c q E H. apply app_eq_app in E. destruct E as (l & [(E1 & E2)|(E1 & E2)]).
    - destruct l as [|x l].
      + destruct (B [] c q (eq_sym E2) H) as [(p' & X) _]. destruct p'; discriminate.
      + cbn [app] in E2. injection E2 as <- E2. subst a q. destruct (A p c l eq_refl H) as [(p' & ->) (q' & ->)]. split; [eauto|]. exists (q' ++ b). reflexivity.
    - subst p b. destruct (B l c q eq_refl H) as [(p' & ->) (q' & ->)]. split; [|eauto]. exists (a ++ p'). rewrite app_assoc. reflexivity.
  Qed.

  Lemma isolated_one c : ~ K 32%N -> isolated K [32%N; c; 32%N].
  Proof.
    intros N p d q E H. destruct p as [|x [|y [|z p]]]; cbn [app] in E.
    - injection E as <- _. contradiction.
    - injection E as <- <- <-. split; [exists []; reflexivity|exists []; reflexivity].
    - injection E as _ _ <- _. contradiction.
    - injection E as _ _ _ E. destruct p; discriminate.
  Qed.

  Lemma isolated_filter keep s : keep 32%N = true -> isolated K s -> isolated K (filter keep s).
  Proof.
    intros KS I p c q E H. assert (X : exists p0 q0, s = p0 ++ c :: q0 /\ filter keep p0 = p /\ filter keep q0 = q).
    { clear I H. revert p E. induction s as [|x s IH]; intros p E; [destruct p; discriminate|]. cbn [filter] in E. destruct (keep x) eqn:Ek.
      - destruct p as [|y p]; cbn [app] in E; [injection E as -> E; exists [], s; auto|]. injection E as <- E. destruct (IH p E) as (p0 & q0 & -> & <- & <-). exists (x :: p0), q0. cbn [filter]. rewrite Ek. auto.
      - destruct (IH p E) as (p0 & q0 & -> & <- & <-). exists (x :: p0), q0. cbn [filter]. rewrite Ek. auto. }
    destruct X as (p0 & q0 & -> & <- & <-). destruct (I p0 c q0 eq_refl H) as [(p' & ->) (q' & ->)]. split.
    - exists (filter keep p'). rewrite filter_app. cbn [filter]. rewrite KS. reflexivity.
    - exists (filter keep q'). cbn [filter]. rewrite KS. reflexivity.
  Qed.

  Lemma isolated_lower (f : char -> str) s : f 32%N = [32%N] -> (forall c, K c -> f c = [c]) -> (forall c, ~ K c -> Forall (fun d => ~ K d) (f c)) ->
    isolated K s -> isolated K (flat_map f s).
  Proof.
    intros F1 F2 F3 I p c q E H. assert (X : exists p0 q0, s = p0 ++ c :: q0 /\ flat_map f p0 = p /\ flat_map f q0 = q).
    { clear I. revert p E. induction s as [|x s IH]; intros p E; [destruct p; discriminate|]. cbn [flat_map] in E. apply app_eq_app in E. destruct E as (l & [(E1 & E2)|(E1 & E2)]).
      - destruct l as [|y l].
        + rewrite app_nil_r in E1. destruct (IH [] (eq_sym E2)) as (p0 & q0 & -> & Hp & <-). exists (x :: p0), q0. split; [reflexivity|]. cbn [flat_map]. rewrite Hp, app_nil_r. auto.
        + cbn [app] in E2. injection E2 as -> ->. destruct (K_dec x) as [Kx|Kx].
          * rewrite (F2 x Kx) in E1. destruct p as [|z p]; cbn [app] in E1; [|injection E1 as _ E1; destruct p; discriminate]. injection E1 as -> E1. destruct l; [|discriminate]. exists [], s. auto.
          * specialize (F3 x Kx). rewrite E1, Forall_forall in F3. exfalso. apply (F3 y); [apply in_or_app; right; left; reflexivity|exact H].
      - destruct (IH l E2) as (p0 & q0 & -> & <- & <-). exists (x :: p0), q0. cbn [flat_map]. rewrite <- E1. auto. }
    destruct X as (p0 & q0 & -> & <- & <-). destruct (I p0 c q0 eq_refl H) as [(p' & ->) (q' & ->)]. split.
    - exists (flat_map f p'). rewrite flat_map_app. cbn [flat_map]. rewrite F1. reflexivity.
    - exists (flat_map f q'). cbn [flat_map]. rewrite F1. reflexivity.
  Qed.

  Definition spaced (s : str) : str := flat_map (fun c => if K_dec c then [32%N; c; 32%N] else [c]) s.

  Lemma spaced_isolated s : ~ K 32%N -> isolated K (spaced s).
  Proof.
    intros N. unfold spaced. induction s as [|c s IH]; [apply isolated_free; constructor|]. cbn [flat_map]. apply isolated_app; [|exact IH].
    destruct (K_dec c); [apply isolated_one; exact N|apply isolated_free; repeat constructor; assumption].
  Qed.

  Lemma spaced_free s : Forall (fun c => ~ K c) s -> spaced s = s.
  Proof. unfold spaced. induction 1 as [|c s H _ IH]; [reflexivity|]. cbn [flat_map]. rewrite IH. destruct (K_dec c); [contradiction|reflexivity]. Qed.

  Lemma first_K s : Forall (fun c => ~ K c) s \/ exists p c q, s = p ++ c :: q /\ Forall (fun c => ~ K c) p /\ K c.
  Proof.
    induction s as [|c s IH]; [left; constructor|]. destruct (K_dec c) as [H|H]; [right; exists [], c, s; auto|].
    destruct IH as [IH|(p & d & q & -> & F & Kd)]; [left; constructor; assumption|]. right. exists (c :: p), d, q. split; [reflexivity|]. split; [constructor; assumption|exact Kd].
  Qed.

  Lemma spaced_nfd T : ~ K 32%N -> cjk_tables T K -> forall s, isolated K (nfd_text T (spaced s)).
  Proof.
    intros N C. intros s. remember (length s) as n eqn:L. revert s L. induction n as [n IH] using lt_wf_ind. intros s L. destruct (first_K s) as [F|(p & c & q & -> & F & Kc)].
    - rewrite spaced_free by exact F. apply isolated_free. apply (cj_none T K C). exact F.
    - assert (E : spaced (p ++ c :: q) = p ++ 32%N :: [c] ++ 32%N :: spaced q).
      { unfold spaced. rewrite flat_map_app. change (flat_map _ p) with (spaced p). rewrite spaced_free by exact F. cbn [flat_map]. destruct (K_dec c); [reflexivity|contradiction]. }
      rewrite E, !(cj_words T K C). destruct (cj_single T K C c Kc) as (d & ->).
      change (nfd_text T p ++ 32%N :: [d] ++ 32%N :: nfd_text T (spaced q)) with (nfd_text T p ++ [32%N; d; 32%N] ++ nfd_text T (spaced q)).
      apply isolated_app; [apply isolated_free, (cj_none T K C); exact F|]. apply isolated_app; [apply isolated_one; exact N|].
      apply (IH (length q)); [|reflexivity]. rewrite L, app_length. cbn [length]. lia.
  Qed.
End isolation.
