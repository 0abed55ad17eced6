(** C84: objects lent to Python code. *)
From Verif Require Import Base PyRefModel PyRefSpec.

Lemma alter_nth {A} (f : A -> A) : forall l i j, nth_error (alter l i f) j = if i =? j then option_map f (nth_error l j) else nth_error l j.
Proof.
  induction l as [|x l IH]; intros i j.
  - cbn [alter]. destruct j; destruct (_ =? _); reflexivity.
  - destruct i as [|i], j as [|j]; cbn [alter nth_error Nat.eqb option_map]; try reflexivity. apply IH.
Qed.
Lemma alter_length {A} (f : A -> A) : forall l i, length (alter l i f) = length l.
Proof. induction l as [|x l IH]; intros [|i]; cbn [alter length]; auto. Qed.

(** ** One user at a time, and only while the object is lent *)
Fixpoint releases (r : nat) (s : list instr) : nat :=
  match s with
  | [] => 0
  | IRelease r' _ _ :: s' => (if r' =? r then 1 else 0) + releases r s'
  | _ :: s' => releases r s'
  end.
Lemma releases_app r a b : releases r (a ++ b) = releases r a + releases r b.
Proof. induction a as [|[] a IH]; cbn [app releases]; lia. Qed.
Lemma releases_ops r l : releases r (map IOp l) = 0.
Proof. induction l; cbn [map releases]; auto. Qed.
Lemma releases_in r s : (exists a k, In (IRelease r a k) s) <-> 0 < releases r s.
Proof.
  split.
  - intros (a & k & H). induction s as [|i s IH]; [destruct H|]. destruct H as [-> |H]; [cbn [releases]; rewrite Nat.eqb_refl; lia|]. specialize (IH H). destruct i; cbn [releases]; lia.
  - induction s as [|i s IH]; cbn [releases]; [lia|]. destruct i as [| | |r' a k|]; try (intros H; destruct (IH H) as (a' & k' & X); exists a', k'; right; exact X).
    destruct (r' =? r) eqn:E; [apply Nat.eqb_eq in E; subst; intros _; exists a, k; left; reflexivity|]. intros H. destruct (IH H) as (a' & k' & X). exists a', k'. right. exact X.
Qed.

Definition held (cells : list cell) (t r : nat) : nat := match nth_error cells r with Some c => match c_owner c with Some t' => if t' =? t then 1 else 0 | None => 0 end | None => 0 end.
Definition cell_ok (c : cell) : Prop := (c_valid c = false -> c_ptr c = false \/ c_poisoned c = true) /\ (c_owner c <> None -> c_valid c = true).
Definition safe (m : machine) : Prop :=
  Forall cell_ok (m_cells m) /\ forall t x r, nth_error (m_threads m) t = Some x -> releases r (t_stack x) = held (m_cells m) t r.

Lemma held_alter cells r f t r' : (forall c, c_owner (f c) = c_owner c) -> held (alter cells r f) t r' = held cells t r'.
Proof. intros H. unfold held. rewrite alter_nth. destruct (r =? r'); [|reflexivity]. destruct (nth_error cells r') as [c|]; cbn [option_map]; [rewrite H; reflexivity|reflexivity]. Qed.
Lemma ok_alter cells r f : Forall cell_ok cells -> (forall c, nth_error cells r = Some c -> cell_ok c -> cell_ok (f c)) -> Forall cell_ok (alter cells r f).
Proof.
  intros F H. apply Forall_forall. intros c Hin. apply In_nth_error in Hin. destruct Hin as (j & Hj). rewrite alter_nth in Hj. destruct (r =? j) eqn:E.
  - apply Nat.eqb_eq in E. subst j. destruct (nth_error cells r) as [c0|] eqn:N; [|discriminate]. injection Hj as <-. apply H; [reflexivity|]. eapply Forall_forall; [exact F|]. eapply nth_error_In; exact N.
  - eapply Forall_forall; [exact F|]. eapply nth_error_In; exact Hj.
Qed.
Lemma held_new cells t r : held (cells ++ [new_cell]) t r = held cells t r.
Proof.
  unfold held. destruct (Nat.lt_ge_cases r (length cells)) as [L|L]; [rewrite nth_error_app1 by exact L; reflexivity|].
  rewrite nth_error_app2 by exact L. rewrite (proj2 (nth_error_None cells r) L). destruct (r - length cells) as [|[|k]]; reflexivity.
Qed.

Lemma istep_safe t cells md i s cells' md' s' ab : Forall cell_ok cells -> (forall r, releases r (i :: s) = held cells t r) ->
  istep t cells md i s = Some (cells', md', s', ab) ->
  Forall cell_ok cells' /\ (forall r, releases r s' = held cells' t r) /\ (forall t' r, t' <> t -> held cells' t' r = held cells t' r).
Proof.
  intros F HR. destruct i as [o| |r a k body|r a k|r]; cbn [istep releases] in *.
  - destruct md; [|intros H; injection H as <- <- <- <-; auto|intros H; injection H as <- <- <- <-; auto].
    destruct o as [| |body|body|r a k body].
    + intros H; injection H as <- <- <- <-; auto.
    + intros H; injection H as <- <- <- <-; auto.
    + intros H; injection H as <- <- <- <-. split; [exact F|]. split; [|auto]. intros r. rewrite releases_app, releases_ops. cbn [releases]. apply HR.
    + intros H; injection H as <- <- <- <-. split; [apply Forall_app; split; [exact F|repeat constructor; cbn; intuition congruence]|]. split.
      * intros r. rewrite releases_app, releases_ops, held_new. cbn [releases]. apply HR.
      * intros t' r _. apply held_new.
    + destruct (nth_error cells r) as [c|] eqn:N; [|intros H; injection H as <- <- <- <-; auto]. destruct (can_borrow a c); intros H; injection H as <- <- <- <-; [|auto].
      assert (O : forall c, c_owner (borrow a c) = c_owner c) by (intros ?; destruct a; reflexivity).
      split; [apply ok_alter; [exact F|]|split].
      * intros c0 _ [A B]. destruct a; split; assumption.
      * intros r'. cbn [releases]. rewrite held_alter by exact O. apply HR.
      * intros t' r' _. apply held_alter, O.
  - intros H; injection H as <- <- <- <-; auto.
  - destruct (nth_error cells r) as [c|] eqn:N; [|intros H; injection H as <- <- <- <-; auto]. destruct (c_owner c) eqn:OW; [discriminate|].
    assert (O : forall c, c_owner (give_back a c) = c_owner c) by (intros ?; destruct a; reflexivity).
    assert (G : Forall cell_ok (alter cells r (give_back a)) /\ (forall r0, releases r0 s = held (alter cells r (give_back a)) t r0) /\ (forall t' r0, t' <> t -> held (alter cells r (give_back a)) t' r0 = held cells t' r0)).
    { split; [apply ok_alter; [exact F|intros c0 _ [A B]; destruct a; split; assumption]|]. split; [intros r'; rewrite held_alter by exact O; apply HR|intros t' r' _; apply held_alter, O]. }
    destruct (c_poisoned c) eqn:PO; [intros H; injection H as <- <- <- <-; exact G|]. destruct (c_ptr c) eqn:PT; intros H; injection H as <- <- <- <-; [|exact G].
    split; [apply ok_alter; [exact F|]|split].
    + intros c0 N0 [A B]. rewrite N in N0. injection N0 as <-. split; [exact A|]. intros _. cbn [set_owner c_valid]. destruct (c_valid c) eqn:V; [reflexivity|]. destruct (A eq_refl); congruence.
    + intros r'. rewrite releases_app, releases_ops. cbn [releases]. rewrite HR. unfold held. rewrite alter_nth. destruct (r =? r') eqn:E; [|reflexivity]. apply Nat.eqb_eq in E. subst r'. rewrite N, OW. cbn [option_map set_owner c_owner]. rewrite Nat.eqb_refl. reflexivity.
    + intros t' r' D. unfold held. rewrite alter_nth. destruct (r =? r') eqn:E; [|reflexivity]. apply Nat.eqb_eq in E. subst r'. rewrite N, OW. cbn [option_map set_owner c_owner]. destruct (t =? t') eqn:E; [apply Nat.eqb_eq in E; congruence|reflexivity].
  - set (md0 := after_callback k md). intros H; injection H as <- <- <- <-. pose proof (HR r) as HRr. rewrite Nat.eqb_refl in HRr. unfold held in HRr. destruct (nth_error cells r) as [c|] eqn:N; [|lia]. destruct (c_owner c) as [t0|] eqn:OW; [|lia]. destruct (t0 =? t) eqn:ET; [|lia]. apply Nat.eqb_eq in ET. subst t0.
    split; [apply ok_alter; [exact F|]|split].
    + intros c0 _ [A B]. split; [|cbn; congruence]. intros V. assert (V0 : c_valid c0 = false) by (destruct a; exact V). destruct (A V0) as [X|X]; [left|right]; destruct a; cbn; rewrite X; reflexivity.
    + intros r'. unfold held. rewrite alter_nth. destruct (r =? r') eqn:E.
      * apply Nat.eqb_eq in E. subst r'. rewrite N. cbn [option_map set_owner c_owner]. lia.
      * specialize (HR r'). rewrite E in HR. exact HR.
    + intros t' r' D. unfold held. rewrite alter_nth. destruct (r =? r') eqn:E; [|reflexivity]. apply Nat.eqb_eq in E. subst r'. rewrite N, OW. cbn [option_map set_owner c_owner]. destruct (t =? t') eqn:E; [apply Nat.eqb_eq in E; congruence|reflexivity].
  - destruct (nth_error cells r) as [c|] eqn:N; [|intros H; injection H as <- <- <- <-; auto]. destruct (c_owner c) eqn:OW; [discriminate|].
    assert (G : Forall cell_ok (alter cells r end_loan) /\ (forall r0, releases r0 s = held (alter cells r end_loan) t r0) /\ (forall t' r0, t' <> t -> held (alter cells r end_loan) t' r0 = held cells t' r0)).
    { split; [apply ok_alter; [exact F|]|split].
      - intros c0 N0 [A B]. rewrite N in N0. injection N0 as <-. split; [|cbn; congruence]. intros _. cbn. destruct (c_poisoned c); auto.
      - intros r'. rewrite held_alter by reflexivity. apply HR.
      - intros t' r' _. apply held_alter. reflexivity. }
    destruct (c_poisoned c); intros H; injection H as <- <- <- <-; exact G.
Qed.

Lemma tstep_safe t m m' : safe m -> tstep t m = Some m' -> safe m'.
Proof.
  intros [F H] ST. unfold tstep in ST. destruct (m_aborted m); [discriminate|]. destruct (nth_error (m_threads m) t) as [[md [|i s]]|] eqn:NT; try discriminate.
  destruct (istep t (m_cells m) md i s) as [[[[cells md'] s'] ab]|] eqn:IS; [|discriminate]. injection ST as <-.
  destruct (istep_safe _ _ _ _ _ _ _ _ _ F (fun r => H t _ r NT) IS) as (F' & R & O). split; [exact F'|]. cbn [m_threads m_cells]. intros t' x r N. rewrite alter_nth in N. destruct (t =? t') eqn:E.
  - apply Nat.eqb_eq in E. subst t'. rewrite NT in N. injection N as <-. apply R.
  - rewrite O by (intros ->; rewrite Nat.eqb_refl in E; discriminate). apply (H _ _ _ N).
Qed.
Lemma start_safe programs : safe (start programs).
Proof.
  split; [constructor|]. cbn [start m_threads m_cells]. intros t x r H. apply nth_error_In, in_map_iff in H. destruct H as (p & <- & _). cbn [t_stack]. rewrite releases_ops. unfold held. destruct r; reflexivity.
Qed.
Lemma reach_safe programs m : reach programs m -> safe m.
Proof. induction 1; [apply start_safe|eapply tstep_safe; eassumption]. Qed.
Lemma later_reach programs m m' : reach programs m -> later m m' -> reach programs m'.
Proof. intros H L. induction L; [exact H|]. apply IHL. econstructor; eassumption. Qed.

(** A thread that uses an object does so while it is lent, and no other thread uses it. *)
Theorem C84_lent programs m t r : reach programs m -> uses m t r -> lent m r /\ forall t', uses m t' r -> t' = t.
Proof.
  intros RE U. apply reach_safe in RE. destruct RE as [F H].
  assert (X : forall t, uses m t r -> exists c, nth_error (m_cells m) r = Some c /\ c_owner c = Some t).
  { intros t0 (x & a & k & N & I). assert (P : 0 < releases r (t_stack x)) by (apply releases_in; eauto). rewrite (H _ _ _ N) in P. unfold held in P.
    destruct (nth_error (m_cells m) r) as [c|]; [|lia]. exists c. split; [reflexivity|]. destruct (c_owner c) as [t1|]; [|lia]. destruct (t1 =? t0) eqn:E; [|lia]. apply Nat.eqb_eq in E. congruence. }
  destruct (X t U) as (c & N & O). split.
  - exists c. split; [exact N|]. eapply Forall_forall in F; [|eapply nth_error_In; exact N]. apply F. congruence.
  - intros t' U'. destruct (X t' U') as (c' & N' & O'). congruence.
Qed.

(** When the loan is over it stays so. *)
Lemma istep_over t cells md i s cells' md' s' ab r c : istep t cells md i s = Some (cells', md', s', ab) -> nth_error cells r = Some c -> c_valid c = false ->
  exists c', nth_error cells' r = Some c' /\ c_valid c' = false.
Proof.
  intros ST N V.
  assert (G : forall r0 f, (forall c, c_valid c = false -> c_valid (f c) = false) -> exists c', nth_error (alter cells r0 f) r = Some c' /\ c_valid c' = false).
  { intros r0 f Hf. rewrite alter_nth. destruct (r0 =? r); rewrite N; cbn [option_map]; eauto. }
  destruct i as [o| |r0 a k body|r0 a k|r0]; cbn [istep] in ST.
  - destruct md; [|injection ST as <- <- <- <-; eauto|injection ST as <- <- <- <-; eauto]. destruct o as [| |body|body|r0 a k body]; try (injection ST as <- <- <- <-; eauto).
    + exists c. split; [|exact V]. rewrite nth_error_app1; [exact N|]. apply nth_error_Some. congruence.
    + destruct (nth_error cells r0) as [c0|]; [|injection ST as <- <- <- <-; eauto]. destruct (can_borrow a c0); injection ST as <- <- <- <-; [|eauto]. apply G. intros ? ?; destruct a; assumption.
  - injection ST as <- <- <- <-; eauto.
  - destruct (nth_error cells r0) as [c0|]; [|injection ST as <- <- <- <-; eauto]. destruct (c_owner c0); [discriminate|].
    destruct (c_poisoned c0); [|destruct (c_ptr c0)]; injection ST as <- <- <- <-; apply G; intros ? ?; try destruct a; assumption.
  - injection ST as <- <- <- <-. apply G. intros ? ?; destruct a; assumption.
  - destruct (nth_error cells r0) as [c0|]; [|injection ST as <- <- <- <-; eauto]. destruct (c_owner c0); [discriminate|]. destruct (c_poisoned c0); injection ST as <- <- <- <-; apply G; reflexivity.
Qed.
Lemma later_over m m' r : later m m' -> over m r -> over m' r.
Proof.
  induction 1 as [m|t m m1 m2 ST _ IH]; [auto|]. intros (c & N & V). apply IH. unfold tstep in ST. destruct (m_aborted m); [discriminate|]. destruct (nth_error (m_threads m) t) as [[md [|i s]]|]; try discriminate.
  destruct (istep t (m_cells m) md i s) as [[[[cells md'] s'] ab]|] eqn:IS; [|discriminate]. injection ST as <-. exact (istep_over _ _ _ _ _ _ _ _ _ _ _ IS N V).
Qed.

(** When the loan is over, no thread ever uses the object again. *)
Theorem C84_over programs m m' r : reach programs m -> over m r -> later m m' -> over m' r /\ forall t, ~ uses m' t r.
Proof.
  intros RE O L. pose proof (later_over _ _ _ L O) as O'. split; [exact O'|]. intros t U. destruct (C84_lent _ _ _ _ (later_reach _ _ _ RE L) U) as [(c & N & V) _]. destruct O' as (c' & N' & V'). congruence.
Qed.
(** And every call of a method of its reference raises. *)
Theorem C84_exception programs m m' t r : reach programs m -> over m r -> calls m t r -> tstep t m = Some m' ->
  raising m' t \/ (calls m' t r /\ exists s a strict body, nth_error (m_threads m') t = Some (mkThread MNormal (ILock r a strict body :: s))).
Proof.
  intros RE (c & N & V) (s & a & k & body & C) ST. apply reach_safe in RE. destruct RE as [F _]. assert (OK : cell_ok c) by (eapply Forall_forall; [exact F|eapply nth_error_In; exact N]).
  unfold tstep in ST. destruct (m_aborted m); [discriminate|]. destruct C as [C|C]; rewrite C in ST; cbn [istep] in ST; rewrite N in ST.
  - assert (NT : forall th, nth_error (alter (m_threads m) t (fun _ => th)) t = Some th) by (intros th; rewrite alter_nth, Nat.eqb_refl, C; reflexivity).
    destruct (can_borrow a c); injection ST as <-.
    + right. assert (X : exists s0 a0 k0 b0, nth_error (alter (m_threads m) t (fun _ => mkThread MNormal (ILock r a k body :: s))) t = Some (mkThread MNormal (ILock r a0 k0 b0 :: s0))) by (eexists _, _, _, _; apply NT).
      split; [|exact X]. exists s, a, k, body. right. apply NT.
    + left. eexists. split; [apply NT|]. cbn. discriminate.
  - assert (NT : forall th, nth_error (alter (m_threads m) t (fun _ => th)) t = Some th) by (intros th; rewrite alter_nth, Nat.eqb_refl, C; reflexivity).
    destruct (c_owner c); [discriminate|]. left. destruct OK as [A _]. destruct (A V) as [X|X]; rewrite X in ST.
    + destruct (c_poisoned c); injection ST as <-; eexists; (split; [apply NT|]); cbn; discriminate.
    + injection ST as <-; eexists; (split; [apply NT|]); cbn; discriminate.
Qed.

(** ** A thread alone *)
Definition hold_of (i : instr) : option (nat * access) := match i with ILock r a _ _ | IRelease r a _ => Some (r, a) | _ => None end.
Definition holds (r : nat) (a : access) (s : list instr) : Prop := exists i, In i s /\ hold_of i = Some (r, a).
Definition free (r : nat) (s : list instr) : Prop := forall a, ~ holds r a s.
Fixpoint guarded (s : list instr) : Prop :=
  match s with
  | [] => True
  | IOp o :: s' => polite o = true /\ (forall r, holds r Shared s' -> no_shared r o = true) /\ guarded s'
  | ICatch :: s' => guarded s'
  | ILock r a _ body :: s' => forallb polite body = true /\ (a = Shared -> forallb (no_shared r) body = true) /\
      (forall r', holds r' Shared s' -> forallb (no_shared r') body = true) /\ free r s' /\ guarded s'
  | IRelease r _ _ :: s' => free r s' /\ guarded s'
  | IDrop r :: s' => free r s' /\ guarded s'
  end.
Definition borrowed (cells : list cell) (s : list instr) : Prop :=
  forall r a, holds r a s -> exists c, nth_error cells r = Some c /\ match a with Shared => 0 < c_shared c | Exclusive => c_excl c = true end.

Lemma holds_cons r a i s : holds r a (i :: s) <-> hold_of i = Some (r, a) \/ holds r a s.
Proof.
  split.
  - intros (j & [<- |H] & E); [left; exact E|right; exists j; auto].
  - intros [E|(j & H & E)]; [exists i; split; [left; reflexivity|exact E]|exists j; split; [right; exact H|exact E]].
Qed.
Lemma holds_ops r a l s : holds r a (map IOp l ++ s) <-> holds r a s.
Proof. induction l as [|o l IH]; cbn [map app]; [reflexivity|]. rewrite holds_cons, IH. cbn [hold_of]. split; [intros [X|X]; [discriminate|exact X]|auto]. Qed.
Lemma guarded_ops l s : forallb polite l = true -> (forall r, holds r Shared s -> forallb (no_shared r) l = true) -> guarded s -> guarded (map IOp l ++ s).
Proof.
  induction l as [|o l IH]; cbn [map app forallb guarded]; [auto|]. intros P H G. apply andb_true_iff in P. destruct P as [P P']. split; [exact P|]. split.
  - intros r Hr. rewrite holds_ops in Hr. apply H, andb_true_iff in Hr. apply Hr.
  - apply IH; [exact P'| |exact G]. intros r Hr. apply H, andb_true_iff in Hr. apply Hr.
Qed.

Lemma borrowed_alter cells r f s : (forall c, c_shared c <= c_shared (f c) /\ (c_excl c = true -> c_excl (f c) = true)) -> borrowed cells s -> borrowed (alter cells r f) s.
Proof.
  intros Hf B r' a H. destruct (B r' a H) as (c & N & K). rewrite alter_nth. destruct (r =? r'); rewrite N; cbn [option_map]; [|eauto]. eexists. split; [reflexivity|]. destruct (Hf c). destruct a; [lia|auto].
Qed.
Lemma borrowed_free cells r f s : free r s -> borrowed cells s -> borrowed (alter cells r f) s.
Proof.
  intros Fr B r' a H. destruct (B r' a H) as (c & N & K). rewrite alter_nth. destruct (r =? r') eqn:E; [apply Nat.eqb_eq in E; subst r'; destruct (Fr a H)|eauto].
Qed.

(** Sizes. *)
Fixpoint size (o : op) : nat :=
  match o with
  | Skip | Fail => 1
  | Try body | Lend body => 2 + list_sum (map size body)
  | Call _ _ _ body => 3 + list_sum (map size body)
  end.
Definition isize (i : instr) : nat := match i with IOp o => size o | ILock _ _ _ body => 2 + list_sum (map size body) | _ => 1 end.
Definition ssize (s : list instr) : nat := list_sum (map isize s).
Lemma ssize_ops l s : ssize (map IOp l ++ s) = list_sum (map size l) + ssize s.
Proof. induction l as [|o l IH]; [reflexivity|]. cbn [map app]. unfold ssize in *. cbn [map list_sum fold_right isize] in *. unfold list_sum in *. lia. Qed.
Lemma ssize_cons i s : ssize (i :: s) = isize i + ssize s.
Proof. reflexivity. Qed.

Lemma istep_guarded t cells md i s cells' md' s' ab : istep t cells md i s = Some (cells', md', s', ab) -> guarded (i :: s) -> borrowed cells (i :: s) ->
  guarded s' /\ borrowed cells' s' /\ ssize s' < ssize (i :: s).
Proof.
  intros ST G B. assert (BS : borrowed cells s) by (intros r a H; apply B, holds_cons; auto).
  assert (SZ : forall i, 1 <= isize i) by (intros [[]| | | |]; cbn; lia).
  rewrite ssize_cons.
  destruct i as [o| |r a k body|r a k|r]; cbn [istep guarded] in *.
  - destruct G as (P & NS & G). assert (KEEP : guarded s /\ borrowed cells s /\ ssize s < isize (IOp o) + ssize s) by (pose proof (SZ (IOp o)); repeat split; [exact G|exact BS|lia]).
    destruct md; [|injection ST as <- <- <- <-; exact KEEP|injection ST as <- <- <- <-; exact KEEP].
    destruct o as [| |body|body|r a k body]; cbn [polite isize size] in *.
    + injection ST as <- <- <- <-; exact KEEP.
    + injection ST as <- <- <- <-; exact KEEP.
    + injection ST as <- <- <- <-. split; [|split].
      * apply guarded_ops; [exact P| |exact G]. intros r Hr. apply holds_cons in Hr. destruct Hr as [Hr|Hr]; [discriminate|]. exact (NS _ Hr).
      * intros r a Hr. apply (proj1 (holds_ops _ _ _ _)), holds_cons in Hr. destruct Hr as [Hr|Hr]; [discriminate|]. exact (BS _ _ Hr).
      * rewrite ssize_ops, ssize_cons. cbn [isize]. lia.
    + injection ST as <- <- <- <-. split; [|split].
      * apply guarded_ops; [exact P| |].
        -- intros r Hr. apply holds_cons in Hr. destruct Hr as [Hr|Hr]; [discriminate|]. exact (NS _ Hr).
        -- cbn [guarded]. split; [|exact G]. intros a Ha. destruct (BS _ _ Ha) as (c & N & _). assert (X : nth_error cells (length cells) <> None) by congruence. apply nth_error_Some in X. lia.
      * intros r a Hr. apply (proj1 (holds_ops _ _ _ _)), holds_cons in Hr. destruct Hr as [Hr|Hr]; [discriminate|]. destruct (BS _ _ Hr) as (c & N & K). exists c. split; [|exact K]. rewrite nth_error_app1; [exact N|]. apply nth_error_Some. congruence.
      * rewrite ssize_ops, ssize_cons. cbn [isize]. lia.
    + apply andb_true_iff in P. destruct P as [P1 P2]. destruct (nth_error cells r) as [c|] eqn:N; [|injection ST as <- <- <- <-; exact KEEP]. destruct (can_borrow a c) eqn:CB; injection ST as <- <- <- <-; [|exact KEEP].
      assert (FR : free r s).
      { intros a' H'. destruct (BS _ _ H') as (c' & N' & K). rewrite N in N'. injection N' as <-. destruct a'.
        - destruct a; [|cbn in CB; apply andb_true_iff in CB; destruct CB as [_ CB]; apply Nat.eqb_eq in CB; lia]. specialize (NS _ H'). cbn [no_shared] in NS. rewrite Nat.eqb_refl in NS. discriminate.
        - destruct a; cbn in CB; rewrite K in CB; discriminate. }
      split; [|split].
      * cbn [guarded]. split; [exact P2|]. split; [intros ->; exact P1|]. split; [|split; [exact FR|exact G]]. intros r' Hr'. specialize (NS _ Hr'). cbn [no_shared] in NS. apply andb_true_iff in NS. apply NS.
      * intros r' a' H'. apply holds_cons in H'. destruct H' as [H'|H'].
        -- cbn [hold_of] in H'. injection H' as <- <-. rewrite alter_nth, Nat.eqb_refl, N. cbn [option_map]. eexists. split; [reflexivity|]. destruct a; cbn; [lia|reflexivity].
        -- apply (borrowed_free _ _ _ _ FR BS). exact H'.
      * rewrite ssize_cons. cbn [isize]. lia.
  - injection ST as <- <- <- <-. repeat split; [exact G|exact BS|cbn; lia].
  - destruct G as (P & NSr & NS & FR & G). assert (KEEP : forall f, guarded s /\ borrowed (alter cells r f) s /\ ssize s < isize (ILock r a k body) + ssize s) by (intros f; split; [exact G|]; split; [apply borrowed_free; assumption|cbn [isize]; lia]).
    destruct (nth_error cells r) as [c|] eqn:N; [|injection ST as <- <- <- <-; split; [exact G|]; split; [exact BS|cbn [isize]; lia]]. destruct (c_owner c); [discriminate|]. destruct (c_poisoned c); [injection ST as <- <- <- <-; apply KEEP|]. destruct (c_ptr c); injection ST as <- <- <- <-; [|apply KEEP].
    split; [|split].
    + apply guarded_ops; [exact P| |cbn [guarded]; auto]. intros r' Hr'. apply holds_cons in Hr'. destruct Hr' as [Hr'|Hr']; [|apply NS, Hr']. cbn [hold_of] in Hr'. injection Hr' as <- ->. apply NSr. reflexivity.
    + apply borrowed_alter; [intros c'; cbn; auto|]. intros r' a' Hr'. apply (proj1 (holds_ops _ _ _ _)), holds_cons in Hr'. destruct Hr' as [Hr'|Hr']; [|exact (BS _ _ Hr')]. apply B, holds_cons. left. exact Hr'.
    + rewrite ssize_ops, ssize_cons. cbn [isize]. lia.
  - injection ST as <- <- <- <-. destruct G as [FR G]. split; [exact G|]. split; [apply borrowed_free; assumption|]. cbn [isize]. lia.
  - destruct G as [FR G]. destruct (nth_error cells r) as [c|]; [|injection ST as <- <- <- <-; split; [exact G|]; split; [exact BS|cbn; lia]]. destruct (c_owner c); [discriminate|].
    destruct (c_poisoned c); injection ST as <- <- <- <-; (split; [exact G|]; split; [apply borrowed_free; assumption|cbn; lia]).
Qed.

Definition mine (t : nat) (c : cell) : Prop := c_owner c = None \/ c_owner c = Some t.
Lemma mine_alter t cells r f : Forall (mine t) cells -> (forall c, mine t c -> mine t (f c)) -> Forall (mine t) (alter cells r f).
Proof.
  intros F H. apply Forall_forall. intros c Hin. apply In_nth_error in Hin. destruct Hin as (j & Hj). rewrite alter_nth in Hj. rewrite Forall_forall in F. destruct (r =? j).
  - destruct (nth_error cells j) as [c0|] eqn:N; [|discriminate]. injection Hj as <-. apply H, F. eapply nth_error_In; exact N.
  - apply F. eapply nth_error_In; exact Hj.
Qed.
Lemma istep_mine t cells md i s cells' md' s' ab : istep t cells md i s = Some (cells', md', s', ab) -> Forall (mine t) cells -> Forall (mine t) cells'.
Proof.
  intros ST F. destruct i as [o| |r a k body|r a k|r]; cbn [istep] in ST.
  - destruct md; [|injection ST as <- <- <- <-; exact F|injection ST as <- <- <- <-; exact F]. destruct o as [| |body|body|r a k body]; try (injection ST as <- <- <- <-; exact F).
    + injection ST as <- <- <- <-. apply Forall_app. split; [exact F|]. constructor; [left; reflexivity|constructor].
    + destruct (nth_error cells r) as [c|]; [|injection ST as <- <- <- <-; exact F]. destruct (can_borrow a c); injection ST as <- <- <- <-; [|exact F]. apply mine_alter; [exact F|]. intros c0 M. destruct a; exact M.
  - injection ST as <- <- <- <-; exact F.
  - destruct (nth_error cells r) as [c|]; [|injection ST as <- <- <- <-; exact F]. destruct (c_owner c); [discriminate|].
    destruct (c_poisoned c); [|destruct (c_ptr c)]; injection ST as <- <- <- <-; (apply mine_alter; [exact F|]; intros c0 M); [destruct a; exact M|right; reflexivity|destruct a; exact M].
  - injection ST as <- <- <- <-. apply mine_alter; [exact F|]. intros c0 M. left. reflexivity.
  - destruct (nth_error cells r) as [c|]; [|injection ST as <- <- <- <-; exact F]. destruct (c_owner c); [discriminate|]. destruct (c_poisoned c); injection ST as <- <- <- <-; (apply mine_alter; [exact F|]; intros c0 M; exact M).
Qed.

(** One thread is never stuck, and its program ends. *)
Theorem C84_alone p : forallb polite p = true -> exists m, later (start [p]) m /\ (m_aborted m = true \/ ended m).
Proof.
  intros P.
  assert (G : forall n m md s, m_threads m = [mkThread md s] -> safe m -> Forall (mine 0) (m_cells m) -> guarded s -> borrowed (m_cells m) s -> ssize s <= n -> exists m', later m m' /\ (m_aborted m' = true \/ ended m')).
  { induction n as [|n IH]; intros m md s T SF MI G B L.
    - destruct s as [|i s]; [|exfalso; rewrite ssize_cons in L; destruct i as [[]| | | |]; cbn in L; lia]. exists m. split; [constructor|]. right. unfold ended. rewrite T. repeat constructor.
    - destruct s as [|i s]; [exists m; split; [constructor|]; right; unfold ended; rewrite T; repeat constructor|].
      destruct (m_aborted m) eqn:AB; [exists m; split; [constructor|]; left; exact AB|].
      assert (NB : istep 0 (m_cells m) md i s <> None).
      { assert (HE : forall r, releases r (i :: s) = held (m_cells m) 0 r) by (intros r; destruct SF as [_ SF]; apply (SF 0 (mkThread md (i :: s)) r); rewrite T; reflexivity).
        assert (HO : forall r c o, nth_error (m_cells m) r = Some c -> c_owner c = Some o -> free r s -> (forall a k, i <> IRelease r a k) -> False).
        { intros r c o N O FR NI. assert (M0 : mine 0 c) by (eapply Forall_forall; [exact MI|eapply nth_error_In; exact N]). destruct M0 as [M0|M0]; [congruence|]. specialize (HE r). unfold held in HE. rewrite N, M0 in HE. cbn [Nat.eqb] in HE.
          assert (Y : 0 < releases r (i :: s)) by lia. apply releases_in in Y. destruct Y as (a & k & [Y|Y]); [exact (NI _ _ Y)|]. apply (FR a). exists (IRelease r a k). auto. }
        destruct i as [o| |r a k body|r a k|r]; cbn [istep guarded] in *.
        - destruct md; try discriminate. destruct o as [| |body|body|r a k body]; try discriminate. destruct (nth_error (m_cells m) r) as [c|]; [|discriminate]. destruct (can_borrow a c); discriminate.
        - discriminate.
        - destruct (nth_error (m_cells m) r) as [c|] eqn:N; [|discriminate]. destruct (c_owner c) as [o|] eqn:O; [exfalso; eapply HO; [exact N|exact O|apply G|discriminate]|]. destruct (c_poisoned c); [discriminate|]. destruct (c_ptr c); discriminate.
        - discriminate.
        - destruct (nth_error (m_cells m) r) as [c|] eqn:N; [|discriminate]. destruct (c_owner c) as [o|] eqn:O; [exfalso; eapply HO; [exact N|exact O|apply G|discriminate]|]. destruct (c_poisoned c); discriminate. }
      destruct (istep 0 (m_cells m) md i s) as [[[[cells md'] s'] ab]|] eqn:IS; [|destruct (NB eq_refl)].
      assert (ST : tstep 0 m = Some (mkMachine cells [mkThread md' s'] ab)) by (unfold tstep; rewrite AB, T; cbn [nth_error]; rewrite IS; reflexivity).
      destruct (istep_guarded _ _ _ _ _ _ _ _ _ IS G B) as (G' & B' & L').
      destruct (IH (mkMachine cells [mkThread md' s'] ab) md' s' eq_refl (tstep_safe _ _ _ SF ST) (istep_mine _ _ _ _ _ _ _ _ _ IS MI) G' B' ltac:(lia)) as (m' & LA & R).
      exists m'. split; [econstructor; eassumption|exact R]. }
  apply (G (ssize (map IOp p)) (start [p]) MNormal (map IOp p)); [reflexivity|apply start_safe|constructor| | |lia].
  - pose proof (guarded_ops p [] P) as X. rewrite app_nil_r in X. apply X; [intros r (j & [] & _)|exact Logic.I].
  - intros r a H. pose proof (holds_ops r a p []) as X. rewrite app_nil_r in X. apply X in H. destruct H as (j & [] & _).
Qed.

(** ** No abort *)
Definition calm (md : mode) (s : list instr) : Prop :=
  Forall (fun i => match i with IOp o => gentle o = true | ILock _ _ k body => (negb k || forallb is_skip body) = true /\ forallb gentle body = true | _ => True end) s /\
  md <> MPanic /\
  forall above r a below, s = above ++ IRelease r a true :: below -> Forall (fun i => i = IOp Skip) above /\ md = MNormal.
Definition clean (cells : list cell) : Prop := Forall (fun c => c_poisoned c = false) cells.

Lemma calm_tail md i s : calm md (i :: s) -> i <> IOp Skip -> forall md', md' <> MPanic -> calm md' s.
Proof.
  intros (F & M & H) NE md' M'. apply Forall_cons_iff in F. split; [apply F|]. split; [exact M'|]. intros above r a below E. destruct (H (i :: above) r a below) as [X _]; [rewrite E; reflexivity|]. apply Forall_cons_iff in X. destruct X as [X _]. contradiction.
Qed.
Lemma calm_push s l i md : calm md s -> (forall above r a below, s <> above ++ IRelease r a true :: below) -> forallb gentle l = true ->
  match i with ICatch | IDrop _ => True | IRelease _ _ k => k = true -> forallb is_skip l = true /\ md = MNormal | _ => False end -> calm md (map IOp l ++ i :: s).
Proof.
  intros (F & M & H) NS GL HI. split; [|split; [exact M|]].
  - apply Forall_app. split; [|constructor; [destruct i; tauto|exact F]]. apply Forall_forall. intros j Hj. apply in_map_iff in Hj. destruct Hj as (o & <- & Ho). rewrite forallb_forall in GL. apply GL, Ho.
  - intros above r a below E.
    assert (X : exists l1 l2, above = map IOp l1 ++ l2 /\ ((l1 = l /\ i :: s = l2 ++ IRelease r a true :: below))).
    { clear -E. revert above E. induction l as [|o l IH]; intros above E; cbn [map app] in E.
      - exists [], above. auto.
      - destruct above as [|j above]; [discriminate|]. cbn [app] in E. injection E as E1 E2. destruct (IH _ E2) as (l1 & l2 & -> & -> & Q). exists (o :: l), l2. split; [cbn [map app]; congruence|]. auto. }
    destruct X as (l1 & l2 & -> & -> & Q). destruct l2 as [|j l2].
    + cbn [app] in Q. injection Q as -> _. destruct (HI eq_refl) as [SK ->]. split; [|reflexivity]. rewrite app_nil_r. apply Forall_forall. intros j Hj. apply in_map_iff in Hj. destruct Hj as (o & <- & Ho). rewrite forallb_forall in SK. specialize (SK _ Ho). destruct o; try discriminate. reflexivity.
    + cbn [app] in Q. injection Q as -> Q. destruct (NS _ _ _ _ Q).
Qed.
Lemma no_strict md i s : calm md (i :: s) -> i <> IOp Skip -> forall above r a below, s <> above ++ IRelease r a true :: below.
Proof. intros (_ & _ & H) NE above r a below E. destruct (H (i :: above) r a below) as [X _]; [rewrite E; reflexivity|]. apply Forall_cons_iff in X. destruct X as [X _]. contradiction. Qed.
Lemma clean_alter cells r f : clean cells -> (forall c, c_poisoned c = false -> c_poisoned (f c) = false) -> clean (alter cells r f).
Proof.
  intros F H. apply Forall_forall. intros c Hin. apply In_nth_error in Hin. destruct Hin as (j & Hj). rewrite alter_nth in Hj. unfold clean in F. rewrite Forall_forall in F. destruct (r =? j).
  - destruct (nth_error cells j) as [c0|] eqn:N; [|discriminate]. injection Hj as <-. apply H, F. eapply nth_error_In; exact N.
  - apply F. eapply nth_error_In; exact Hj.
Qed.

Lemma istep_calm t cells md i s cells' md' s' ab : istep t cells md i s = Some (cells', md', s', ab) -> clean cells -> calm md (i :: s) -> clean cells' /\ calm md' s' /\ ab = false.
Proof.
  intros ST C K. pose proof (calm_tail _ _ _ K) as TL. pose proof (no_strict _ _ _ K) as NS. assert (KF := proj1 K). assert (KM := proj1 (proj2 K)). assert (KH := proj2 (proj2 K)). apply Forall_cons_iff in KF. destruct KF as [KI _].
  destruct i as [o| |r a k body|r a k|r]; cbn [istep] in ST.
  - destruct md; [|injection ST as <- <- <- <-|destruct (KM eq_refl)].
    + destruct o as [| |body|body|r a k body].
      * injection ST as <- <- <- <-. split; [exact C|]. split; [|reflexivity]. destruct K as (F & _ & H). split; [apply Forall_cons_iff in F; apply F|]. split; [discriminate|]. intros above r a below E. destruct (H (IOp Skip :: above) r a below) as [X _]; [rewrite E; reflexivity|]. apply Forall_cons_iff in X. split; [apply X|reflexivity].
      * injection ST as <- <- <- <-. split; [exact C|]. split; [apply TL; discriminate|reflexivity].
      * injection ST as <- <- <- <-. split; [exact C|]. split; [|reflexivity]. apply calm_push; [apply TL; discriminate|apply NS; discriminate|exact KI|exact Logic.I].
      * injection ST as <- <- <- <-. split; [apply Forall_app; split; [exact C|repeat constructor]|]. split; [|reflexivity]. apply calm_push; [apply TL; discriminate|apply NS; discriminate|exact KI|exact Logic.I].
      * cbn [gentle] in KI. apply andb_true_iff in KI. destruct (nth_error cells r) as [c|]; [|injection ST as <- <- <- <-; split; [exact C|]; split; [apply TL; discriminate|reflexivity]].
        destruct (can_borrow a c); injection ST as <- <- <- <-; [|split; [exact C|]; split; [apply TL; discriminate|reflexivity]]. split; [apply clean_alter; [exact C|]; intros c0 P; destruct a; exact P|]. split; [|reflexivity].
        destruct (TL ltac:(discriminate) MNormal ltac:(discriminate)) as (F & _ & H). split; [constructor; [exact KI|exact F]|]. split; [discriminate|]. intros above r' a' below E. destruct above as [|j above]; [discriminate|]. cbn [app] in E. injection E as _ E. destruct (NS ltac:(discriminate) _ _ _ _ E).
    + split; [exact C|]. split; [|reflexivity]. destruct K as (F & _ & H). split; [apply Forall_cons_iff in F; apply F|]. split; [discriminate|]. intros above r a below E. destruct (H (IOp o :: above) r a below) as [_ X]; [rewrite E; reflexivity|]. discriminate.
  - injection ST as <- <- <- <-. split; [exact C|]. split; [apply TL; discriminate|reflexivity].
  - destruct (nth_error cells r) as [c|] eqn:N; [|injection ST as <- <- <- <-; split; [exact C|]; split; [apply TL; discriminate|reflexivity]]. destruct (c_owner c); [discriminate|].
    assert (PC : c_poisoned c = false) by (eapply Forall_forall in C; [exact C|eapply nth_error_In; exact N]). rewrite PC in ST. destruct (c_ptr c); injection ST as <- <- <- <-.
    + split; [apply clean_alter; [exact C|]; intros c0 P; exact P|]. split; [|reflexivity]. apply calm_push; [apply TL; discriminate|apply NS; discriminate|apply KI|]. intros ->. cbn [negb orb] in KI. split; [apply KI|reflexivity].
    + split; [apply clean_alter; [exact C|]; intros c0 P; destruct a; exact P|]. split; [apply TL; discriminate|reflexivity].
  - assert (MD : after_callback k md <> MPanic).
    { destruct k; [|destruct md; cbn; congruence]. destruct (KH [] r a s eq_refl) as [_ ->]. discriminate. }
    injection ST as <- <- <- <-. split; [apply clean_alter; [exact C|]; intros c0 P; destruct a; cbn; rewrite P; destruct (after_callback k md); try reflexivity; congruence|]. split; [apply TL; [discriminate|exact MD]|reflexivity].
  - destruct (nth_error cells r) as [c|] eqn:N; [|injection ST as <- <- <- <-; split; [exact C|]; split; [apply TL; [discriminate|exact KM]|reflexivity]]. destruct (c_owner c); [discriminate|].
    assert (PC : c_poisoned c = false) by (eapply Forall_forall in C; [exact C|eapply nth_error_In; exact N]). rewrite PC in ST. injection ST as <- <- <- <-. split; [apply clean_alter; [exact C|]; intros c0 P; exact P|]. split; [apply TL; [discriminate|exact KM]|reflexivity].
Qed.

(** If the callbacks of [filter], [for_each] and [map] do not raise (and leave references
    alone), nothing panics and the process is not aborted, whatever else raises. *)
Theorem C84_no_abort programs m : Forall (fun p => forallb gentle p = true) programs -> reach programs m ->
  m_aborted m = false /\ Forall (fun x => t_mode x <> MPanic) (m_threads m).
Proof.
  intros GP RE. assert (X : m_aborted m = false /\ clean (m_cells m) /\ Forall (fun x => calm (t_mode x) (t_stack x)) (m_threads m)).
  { induction RE as [|t m m' RE IH ST].
    - split; [reflexivity|]. split; [constructor|]. cbn [start m_threads]. apply Forall_forall. intros x Hx. apply in_map_iff in Hx. destruct Hx as (p & <- & Hp). rewrite Forall_forall in GP. specialize (GP _ Hp). cbn [t_mode t_stack]. split; [|split; [discriminate|]].
      + apply Forall_forall. intros j Hj. apply in_map_iff in Hj. destruct Hj as (o & <- & Ho). rewrite forallb_forall in GP. apply GP, Ho.
      + intros above r a below E. exfalso. assert (Y : In (IRelease r a true) (map IOp p)) by (rewrite E; apply in_or_app; right; left; reflexivity). apply in_map_iff in Y. destruct Y as (o & Y & _). discriminate.
    - destruct IH as (AB & C & F). unfold tstep in ST. rewrite AB in ST. destruct (nth_error (m_threads m) t) as [[md [|i s]]|] eqn:NT; try discriminate.
      destruct (istep t (m_cells m) md i s) as [[[[cells md'] s'] ab]|] eqn:IS; [|discriminate]. injection ST as <-. cbn [m_aborted m_cells m_threads].
      assert (K : calm md (i :: s)) by (rewrite Forall_forall in F; exact (F _ (nth_error_In _ _ NT))). destruct (istep_calm _ _ _ _ _ _ _ _ _ IS C K) as (C' & K' & ->). split; [reflexivity|]. split; [exact C'|].
      apply Forall_forall. intros x Hx. apply In_nth_error in Hx. destruct Hx as (j & Hj). rewrite alter_nth in Hj. destruct (t =? j); [destruct (nth_error (m_threads m) j); [injection Hj as <-; exact K'|discriminate]|]. rewrite Forall_forall in F; exact (F _ (nth_error_In _ _ Hj)). }
  destruct X as (AB & _ & F). split; [exact AB|]. eapply Forall_impl; [|exact F]. intros x (_ & K & _). exact K.
Qed.

(** ** Examples and findings *)
Fixpoint run_threads (ts : list nat) (m : machine) : option machine :=
  match ts with [] => Some m | t :: ts' => match tstep t m with Some m' => run_threads ts' m' | None => None end end.
Lemma run_reach programs ts : forall m m', reach programs m -> run_threads ts m = Some m' -> reach programs m'.
Proof.
  induction ts as [|t ts IH]; intros m m' RE; cbn [run_threads]; [intros H; injection H as <-; exact RE|]. destruct (tstep t m) as [m1|] eqn:E; [|discriminate]. apply IH. econstructor; eassumption.
Qed.

(** A reference kept by another thread: used while the object is lent, and again when it is not. *)
Definition ex_keep : list (list op) := [[Lend [Skip; Call 0 Exclusive true [Skip]]]; [Call 0 Shared false []; Call 0 Exclusive false []]].
Example C84_ex : (exists m, reach ex_keep m /\ uses m 1 0 /\ lent m 0) /\
  (exists m, reach ex_keep m /\ over m 0 /\ calls m 1 0) /\
  forallb polite (nth 0 ex_keep []) = true /\ Forall (fun p => forallb gentle p = true) ex_keep.
Proof.
  split; [|split; [|split; [reflexivity|repeat constructor]]].
  - eexists. split; [eapply (run_reach _ [0; 1; 1]); [constructor|reflexivity]|]. split.
    + eexists _, _, _. split; [reflexivity|]. left. reflexivity.
    + eexists. split; reflexivity.
  - eexists. split; [eapply (run_reach _ [0; 1; 1; 1; 0; 0; 0; 0; 0; 0]); [constructor|reflexivity]|]. split.
    + eexists. split; reflexivity.
    + eexists _, _, _, _. left. reflexivity.
Qed.

(** [n.for_each(lambda c: n.normalized)] waits for itself for ever. *)
Theorem C84_self_refuted : exists p m, p = [Lend [Call 0 Shared true [Call 0 Shared false []]]] /\ reach [p] m /\
  m_aborted m = false /\ ~ ended m /\ forall t, tstep t m = None.
Proof.
  eexists _, _. split; [reflexivity|]. split; [eapply (run_reach _ [0; 0; 0; 0]); [constructor|reflexivity]|]. split; [reflexivity|]. split.
  - intros H. apply Forall_cons_iff in H. destruct H as [H _]. discriminate.
  - intros [|[|t]]; reflexivity.
Qed.

(** A thread that uses a kept reference when the loan ends: one waits for the mutex with the
    GIL, the other holds the mutex and waits for the GIL. *)
Theorem C84_threads_refuted : exists programs m h, programs = [[Lend [Skip]]; [Call 0 Shared true [Skip]]] /\
  gil_path (start programs, 0) (m, h) /\ m_aborted m = false /\ ~ ended m /\ forall x, ~ gil_step (m, h) x.
Proof.
  eexists _, _, 0. split; [reflexivity|]. split.
  { eapply gil_next; [eapply gil_run; reflexivity|]. eapply gil_next; [eapply (gil_switch _ 0 1); [reflexivity|reflexivity|cbn; lia|lia|reflexivity]|].
    eapply gil_next; [eapply gil_run; reflexivity|]. eapply gil_next; [eapply gil_run; reflexivity|]. eapply gil_next; [eapply (gil_switch _ 1 0); [reflexivity|reflexivity|cbn; lia|lia|reflexivity]|].
    eapply gil_next; [eapply gil_run; reflexivity|]. apply gil_refl. }
  split; [reflexivity|]. split.
  - intros H. apply Forall_cons_iff in H. destruct H as [H _]. discriminate.
  - intros x H. inversion H as [m m' h ST|m h h' y N P L D A]; subst; [discriminate ST|]. cbn in N. injection N as <-. discriminate P.
Qed.

(** An exception raised by a callback of [filter] in a normalizer written in Python aborts the
    process; the user's [except] is not reached. *)
Theorem C84_abort_refuted : exists p m, p = [Try [Lend [Call 0 Exclusive true [Fail]]]] /\ reach [p] m /\ m_aborted m = true.
Proof. eexists _, _. split; [reflexivity|]. split; [eapply (run_reach _ [0; 0; 0; 0; 0; 0; 0]); [constructor|reflexivity]|reflexivity]. Qed.
