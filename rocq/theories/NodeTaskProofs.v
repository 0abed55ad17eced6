From Verif Require Import Base ListFacts NodeTaskModel NodeTaskSpec.

Lemma put_len {A} (l : list A) i a : length (put_nth l i a) = length l.
Proof. revert i. induction l as [|x l IH]; intros [|i]; cbn [put_nth length]; auto. Qed.
Lemma put_nth_same {A} (l : list A) i a x : nth_error l i = Some x -> nth_error (put_nth l i a) i = Some a.
Proof. revert i. induction l as [|y l IH]; intros [|i]; cbn [put_nth nth_error]; try discriminate; auto. Qed.
Lemma put_nth_other {A} (l : list A) i j a : i <> j -> nth_error (put_nth l i a) j = nth_error l j.
Proof. revert i j. induction l as [|y l IH]; intros [|i] [|j] H; cbn [put_nth nth_error]; auto; congruence. Qed.
Lemma put_split {A} (l : list A) i a x : nth_error l i = Some x -> exists l1 l2, l = l1 ++ x :: l2 /\ put_nth l i a = l1 ++ a :: l2 /\ length l1 = i.
Proof.
  revert i. induction l as [|y l IH]; intros [|i] H; cbn [nth_error] in H; try discriminate.
  - injection H as ->. exists [], l. auto.
  - destruct (IH i H) as (l1 & l2 & -> & E & L). exists (y :: l1), l2. cbn [put_nth app length]. rewrite E. auto.
Qed.

Section proofs.
  Context {St Mo Tx Re Ou : Type} (one : St -> Mo -> Tx -> Re) (finish : St -> list Re -> Ou).
  Context (mdl : nat -> nat) (threads workers : nat) (pref : bool).
  Notation world := (world St Mo Tx Re Ou).
  Notation task := (task Tx Re Ou).
  Notation step := (step one finish mdl threads workers pref).
  Notation run := (run one finish mdl threads workers pref).
  Notation states := (states one finish mdl threads workers pref).
  Implicit Types w v u : world.

  (** What a step of the pool does to a task. *)
  Definition moves (w : world) (k : nat) (xs : list Tx) (st st' : status Re Ou) : Prop :=
    (st = Queued /\ st' = Taken) \/
    (st = Taken /\ st' = Running (map (fun _ => Todo) xs) /\ held k w = false) \/
    (exists l i s s', st = Running l /\ nth_error l i = Some s /\ st' = Running (put_nth l i s') /\
       ((s = Todo /\ s' = Waits) \/ (s = Waits /\ s' = Inside) \/ (s = Inside /\ exists x, nth_error xs i = Some x /\ s' = Filled (one (w_set w k) (w_mod w (mdl k)) x)))) \/
    (exists l rs, st = Running l /\ all_filled l = Some rs /\ st' = Done (finish (w_set w k) rs)).

  Lemma slot_moves w p i next w' : step_slot w p i next = Some w' ->
    exists t l s s', nth_error (w_tasks w) p = Some t /\ k_status t = Running l /\ nth_error l i = Some s /\ next t s = Some s' /\ w' = set_task w p t (Running (put_nth l i s')).
  Proof.
    unfold step_slot. destruct (nth_error (w_tasks w) p) as [t|]; [|discriminate]. destruct (k_status t) as [| |l|] eqn:E; try discriminate.
    destruct (nth_error l i) as [s|] eqn:N'; [|discriminate]. destruct (next t s) as [s'|] eqn:X; [|discriminate]. intros H. exists t, l, s, s'. split; [reflexivity|]. split; [exact E|]. split; [exact N'|]. split; [exact X|congruence].
  Qed.
  Lemma pool_step a w w' : a <> LMain -> step a w = Some w' ->
    exists p t st', nth_error (w_tasks w) p = Some t /\ moves w (k_tok t) (k_texts t) (k_status t) st' /\ w' = set_task w p t st'.
  Proof.
    intros NM H. destruct a as [|p|p|p i|p i|p i|p]; [congruence| | | | | |]; cbn [NodeTaskModel.step] in H.
    - destruct (nth_error (w_tasks w) p) as [t|] eqn:E; [|discriminate]. destruct (k_status t) eqn:K; try discriminate.
      destruct (occupied w <? threads); [|discriminate]. exists p, t, Taken. split; [exact E|]. split; [left; auto|congruence].
    - destruct (nth_error (w_tasks w) p) as [t|] eqn:E; [|discriminate]. destruct (k_status t) eqn:K; try discriminate.
      destruct (held (k_tok t) w) eqn:Hd; [discriminate|]. cbn [orb] in H. destruct (pref && wanted (k_tok t) w); [discriminate|].
      exists p, t, (Running (map (fun _ => Todo) (k_texts t))). split; [exact E|]. split; [right; left; auto|congruence].
    - apply slot_moves in H. destruct H as (t & l & s & s' & E & K & N' & X & ->). exists p, t, (Running (put_nth l i s')). split; [exact E|]. split; [|reflexivity].
      right. right. left. exists l, i, s, s'. split; [exact K|]. split; [exact N'|]. split; [reflexivity|]. left. destruct s; try discriminate. destruct (busy w <? workers); [|discriminate]. split; congruence.
    - apply slot_moves in H. destruct H as (t & l & s & s' & E & K & N' & X & ->). exists p, t, (Running (put_nth l i s')). split; [exact E|]. split; [|reflexivity].
      right. right. left. exists l, i, s, s'. split; [exact K|]. split; [exact N'|]. split; [reflexivity|]. right. left. destruct s; try discriminate. destruct (_ || _); [discriminate|]. split; congruence.
    - apply slot_moves in H. destruct H as (t & l & s & s' & E & K & N' & X & ->). exists p, t, (Running (put_nth l i s')). split; [exact E|]. split; [|reflexivity].
      right. right. left. exists l, i, s, s'. split; [exact K|]. split; [exact N'|]. split; [reflexivity|]. right. right. destruct s; try discriminate. split; [reflexivity|].
      destruct (nth_error (k_texts t) i) as [x|]; [|discriminate]. exists x. split; [reflexivity|]. cbn [option_map] in X. congruence.
    - destruct (nth_error (w_tasks w) p) as [t|] eqn:E; [|discriminate]. destruct (k_status t) as [| |l|] eqn:K; try discriminate.
      destruct (all_filled l) as [rs|] eqn:F; [|discriminate]. eexists p, t, _. split; [exact E|]. split; [right; right; right; exists l, rs; auto|congruence].
  Qed.
  Lemma set_at_same w p t st t0 : nth_error (w_tasks w) p = Some t0 -> nth_error (w_tasks (set_task w p t st)) p = Some (mkTask (k_tok t) (k_texts t) st).
  Proof. intros H. cbn [set_task w_tasks]. exact (put_nth_same _ _ _ _ H). Qed.
  Lemma set_at_other w p q t st : p <> q -> nth_error (w_tasks (set_task w p t st)) q = nth_error (w_tasks w) q.
  Proof. intros H. cbn [set_task w_tasks]. apply put_nth_other. exact H. Qed.

  (** Nobody reads a tokenizer that is written. *)
  Lemma reading_no k w p t : reading k w = false -> nth_error (w_tasks w) p = Some t -> k_tok t = k -> is_running t = false.
  Proof.
    intros H E K. apply nth_error_In in E. unfold reading in H. destruct (is_running t) eqn:R; [|reflexivity]. exfalso.
    assert (X : existsb (fun t => (k_tok t =? k) && is_running t) (w_tasks w) = true); [|congruence].
    apply existsb_exists. exists t. split; [exact E|]. rewrite R, K, Nat.eqb_refl. reflexivity.
  Qed.
  Lemma reading_yes k w : reading k w = true -> exists p t, nth_error (w_tasks w) p = Some t /\ k_tok t = k /\ is_running t = true.
  Proof.
    intros H. apply existsb_exists in H. destruct H as (t & I & B). apply In_nth_error in I. destruct I as (p & E). apply andb_prop in B. destruct B as [B1 B2].
    exists p, t. split; [exact E|]. split; [lia|exact B2].
  Qed.
  (** What a step of the JavaScript thread does. *)
  Lemma main_step w w' : step_main mdl workers w = Some w' ->
    (w_tasks w' = w_tasks w \/ exists k xs, w_tasks w' = w_tasks w ++ [mkTask k xs Queued]) /\
    ((w_set w' = w_set w /\ w_mod w' = w_mod w) \/
     exists k, (forall k', k' <> k -> w_set w' k' = w_set w k') /\ (forall m, m <> mdl k -> w_mod w' m = w_mod w m) /\
       (reading k w = false /\ w_mod w' = w_mod w \/ held k w = true)) /\
    (forall k, held k w' = true -> held k w = true \/ reading k w = false).
  Proof.
    unfold step_main. destruct (w_main w) as [|k f|k f] eqn:Mn.
    - destruct (w_prog w) as [|[k xs|k f|k f|p] r]; [discriminate| | | |].
      + intros H. injection H as <-. split; [right; exists k, xs; reflexivity|]. split; [left; auto|]. intros k' X. discriminate.
      + destruct (reading k w) eqn:R; [discriminate|]. intros H. injection H as <-. split; [left; reflexivity|]. split; [|intros k' X; discriminate].
        right. exists k. cbn [w_set w_mod]. split; [intros k' D; unfold fun_set; destruct (k' =? k) eqn:E; [lia|reflexivity]|]. auto.
      + destruct (reading k w) eqn:R; [discriminate|]. intros H. injection H as <-. split; [left; reflexivity|]. split; [left; auto|].
        intros k' X. unfold held in X. cbn [w_main] in X. right. assert (k = k') as <- by lia. exact R.
      + destruct (nth_error (w_tasks w) p) as [t|]; [|discriminate]. destruct (k_status t); try discriminate. intros H. injection H as <-.
        split; [left; reflexivity|]. split; [left; auto|]. intros k' X. discriminate.
    - destruct (inside mdl (mdl k) w); [discriminate|]. intros H. injection H as <-. split; [left; reflexivity|]. split; [left; auto|]. intros k' X. left. unfold held. rewrite Mn. exact X.
    - destruct (busy w <? workers); [|discriminate]. intros H. injection H as <-. split; [left; reflexivity|]. split; [|intros k' X; discriminate].
      right. exists k. cbn [w_set w_mod]. split; [intros k' D; unfold fun_set; destruct (k' =? k) eqn:E; [lia|reflexivity]|].
      split; [intros m D; unfold fun_set; destruct (m =? mdl k) eqn:E; [lia|reflexivity]|]. right. unfold held. rewrite Mn. apply Nat.eqb_refl.
  Qed.

  (** ** The invariant of executions *)
  Inductive exec (w0 : world) : list world -> world -> Prop :=
  | exec_0 : exec w0 [w0] w0
  | exec_s tr w a w' : exec w0 tr w -> step a w = Some w' -> exec w0 (tr ++ [w']) w'.
  Lemma run_exec w0 tr w l w' : exec w0 tr w -> run w l = Some w' -> exec w0 (tr ++ tl (states w l)) w'.
  Proof.
    revert tr w. induction l as [|a l IH]; intros tr w E H.
    - injection H as <-. cbn [NodeTaskModel.states tl]. rewrite app_nil_r. exact E.
    - cbn [NodeTaskModel.run] in H. destruct (step a w) as [v|] eqn:S'; [|discriminate].
      pose proof (IH _ _ (exec_s _ _ _ _ _ E S') H) as X. cbn [NodeTaskModel.states tl]. rewrite S'.
      replace (tr ++ states v l) with ((tr ++ [v]) ++ tl (states v l)); [exact X|]. rewrite <- app_assoc. destruct l; reflexivity.
  Qed.
  Lemma run_states w l w' : run w l = Some w' -> exec w (states w l) w'.
  Proof. intros H. pose proof (run_exec _ _ _ _ _ (exec_0 w) H) as X. destruct l; exact X. Qed.

  Notation computing := (@computing St Mo Tx Re Ou).
  Record invariant (tr : list world) (w : world) : Prop := {
    i_here : In w tr;
    i_lock : forall k p t, held k w = true -> nth_error (w_tasks w) p = Some t -> k_tok t = k -> is_running t = false;
    i_len : forall p t l, nth_error (w_tasks w) p = Some t -> k_status t = Running l -> length l = length (k_texts t);
    i_past : forall v p k xs, In v tr -> computing v p k xs ->
      (computing w p k xs /\ w_set v k = w_set w k /\ (unshared mdl -> w_mod v (mdl k) = w_mod w (mdl k))) \/ exists o, nth_error (w_tasks w) p = Some (mkTask k xs (Done o));
    i_fill : forall p k xs l i r x, nth_error (w_tasks w) p = Some (mkTask k xs (Running l)) -> nth_error l i = Some (Filled r) -> nth_error xs i = Some x ->
      exists v, In v tr /\ computing v p k xs /\ r = one (w_set w k) (w_mod v (mdl k)) x;
    i_done : forall p k xs o, nth_error (w_tasks w) p = Some (mkTask k xs (Done o)) ->
      exists u ms, In u tr /\ computing u p k xs /\ length ms = length xs /\
        Forall (fun m => (exists v, In v tr /\ computing v p k xs /\ m = w_mod v (mdl k)) /\ (unshared mdl -> m = w_mod u (mdl k))) ms /\
        o = finish (w_set u k) (map (fun mx => one (w_set u k) (fst mx) (snd mx)) (combine ms xs)) }.

  Lemma invariant_start w : starting w -> invariant [w] w.
  Proof.
    intros [T F]. constructor.
    - left. reflexivity.
    - intros k p t H. unfold held in H. rewrite F in H. discriminate.
    - intros p t l H. rewrite T in H. destruct p; discriminate.
    - intros v p k xs [<-|[]] (l & H). rewrite T in H. destruct p; discriminate.
    - intros p k xs l i r x H. rewrite T in H. destruct p; discriminate.
    - intros p k xs o H. rewrite T in H. destruct p; discriminate.
  Qed.

  Lemma filled_models l : forall (xs : list Tx) rs (P : Mo -> Prop) s, length l = length xs -> all_filled l = Some rs ->
    (forall i r x, nth_error l i = Some (Filled r) -> nth_error xs i = Some x -> exists m, P m /\ r = one s m x) ->
    exists ms, length ms = length xs /\ Forall P ms /\ rs = map (fun mx => one s (fst mx) (snd mx)) (combine ms xs).
  Proof.
    induction l as [|a l IH]; intros xs rs P s L F H.
    - destruct xs; [|discriminate]. injection F as <-. exists []. auto.
    - destruct xs as [|x xs]; [discriminate|]. cbn [all_filled fold_right] in F. fold (all_filled l) in F.
      destruct a as [| | |r]; try discriminate. destruct (all_filled l) as [rs'|] eqn:E; [|discriminate]. injection F as <-.
      destruct (H 0 r x eq_refl eq_refl) as (m & Pm & Er). destruct (IH xs rs' P s) as (ms & L' & F' & E').
      + cbn [length] in L. lia.
      + reflexivity.
      + intros i r' x' A B. exact (H (S i) r' x' A B).
      + exists (m :: ms). cbn [length]. split; [lia|]. split; [constructor; assumption|]. cbn [combine map fst snd]. congruence.
  Qed.

  Lemma invariant_main tr w w' : invariant tr w -> step_main mdl workers w = Some w' -> invariant (tr ++ [w']) w'.
  Proof.
    intros [Ih Il In' Ip If' Id] H. destruct (main_step w w' H) as (HT & HS & HL).
    assert (OLD : forall p t, nth_error (w_tasks w') p = Some t -> nth_error (w_tasks w) p = Some t \/ k_status t = Queued).
    { intros p t E. destruct HT as [HT|(k & xs & HT)]; rewrite HT in E; [left; exact E|]. destruct (le_lt_dec (length (w_tasks w)) p) as [C|C].
      - rewrite nth_error_app2 in E by lia. destruct (p - length (w_tasks w)) as [|n]; [injection E as <-; right; reflexivity|destruct n; discriminate].
      - rewrite nth_error_app1 in E by lia. left. exact E. }
    assert (NEW : forall p t, nth_error (w_tasks w) p = Some t -> nth_error (w_tasks w') p = Some t).
    { intros p t E. destruct HT as [HT|(k & xs & HT)]; rewrite HT; [exact E|]. rewrite nth_error_app1; [exact E|]. apply nth_error_Some. congruence. }
    assert (SAME : forall p k xs, computing w p k xs -> w_set w' k = w_set w k /\ (unshared mdl -> w_mod w' (mdl k) = w_mod w (mdl k))).
    { intros p k xs (l & C). destruct HS as [[-> ->]|(k0 & A & B & D)]; [auto|].
      assert (NE : k <> k0).
      { intros ->. destruct D as [[D _]|D].
        - pose proof (reading_no _ _ _ _ D C eq_refl) as X. discriminate.
        - pose proof (Il k0 p _ D C eq_refl) as X. discriminate. }
      split; [apply A; exact NE|]. intros U. apply B. intros X. apply NE. apply U. exact X. }
    constructor.
    - apply in_or_app. right. left. reflexivity.
    - intros k p t Hd E K. destruct (OLD p t E) as [E'|Q]; [|unfold is_running; rewrite Q; reflexivity].
      destruct (HL k Hd) as [A|A]; [exact (Il k p t A E' K)|exact (reading_no _ _ _ _ A E' K)].
    - intros p t l E K. destruct (OLD p t E) as [E'|Q]; [exact (In' p t l E' K)|congruence].
    - intros v p k xs I C. apply in_app_or in I. destruct I as [I|[<-|[]]].
      + destruct (Ip v p k xs I C) as [(C' & S1 & M1)|(o & D)].
        * left. destruct (SAME p k xs C') as [S2 M2]. split; [destruct C' as (l & C'); exists l; apply NEW; exact C'|]. split; [congruence|]. intros U. rewrite (M1 U), (M2 U). reflexivity.
        * right. exists o. apply NEW. exact D.
      + left. auto.
    - intros p k xs l i r x E N' X. destruct (OLD _ _ E) as [E'|Q]; [|discriminate]. destruct (If' p k xs l i r x E' N' X) as (v & I & C & R).
      exists v. split; [apply in_or_app; left; exact I|]. split; [exact C|]. destruct (SAME p k xs) as [S2 _]; [exists l; exact E'|]. rewrite S2. exact R.
    - intros p k xs o E. destruct (OLD _ _ E) as [E'|Q]; [|discriminate]. destruct (Id p k xs o E') as (u & ms & I & C & L & F & R).
      exists u, ms. split; [apply in_or_app; left; exact I|]. split; [exact C|]. split; [exact L|]. split; [|exact R].
      eapply Forall_impl; [|exact F]. intros m [(v & Iv & Cv & Ev) U]. split; [|exact U]. exists v. split; [apply in_or_app; left; exact Iv|auto].
  Qed.

  Lemma invariant_pool tr w a w' : invariant tr w -> a <> LMain -> step a w = Some w' -> invariant (tr ++ [w']) w'.
  Proof.
    intros [Ih Il In' Ip If' Id] NM H. destruct (pool_step a w w' NM H) as (p & [k xs st] & st' & E & Mv & ->). cbn [k_tok k_texts k_status] in Mv.
    set (w' := set_task w p (mkTask k xs st) st') in *.
    assert (HERE : nth_error (w_tasks w') p = Some (mkTask k xs st')) by exact (set_at_same w p (mkTask k xs st) st' _ E).
    assert (THERE : forall q, p <> q -> nth_error (w_tasks w') q = nth_error (w_tasks w) q) by (intros q D; apply set_at_other; exact D).
    assert (PAST : forall q t, nth_error (w_tasks w') q = Some t -> (q = p /\ t = mkTask k xs st') \/ (q <> p /\ nth_error (w_tasks w) q = Some t)).
    { intros q t X. destruct (Nat.eq_dec p q) as [<-|D]; [left; split; congruence|right; rewrite (THERE q D) in X; auto]. }
    assert (RUN : forall l, st = Running l -> computing w p k xs) by (intros l ->; exists l; exact E).
    constructor.
    - apply in_or_app. right. left. reflexivity.
    - intros k' q t Hd X K. change (held k' w = true) in Hd. destruct (PAST q t X) as [[-> ->]|[D X']]; [|exact (Il k' q t Hd X' K)]. cbn [k_tok] in K. subst k'.
      unfold is_running. cbn [k_status]. pose proof (Il k p _ Hd E eq_refl) as R. unfold is_running in R. cbn [k_status] in R.
      destruct Mv as [[-> ->]|[(-> & -> & Hf)|[(l & i & s & s' & -> & _)|(l & rs & -> & _)]]]; [reflexivity|congruence|discriminate|discriminate].
    - intros q t l X K. destruct (PAST q t X) as [[-> ->]|[D X']]; [|exact (In' q t l X' K)]. cbn [k_status k_texts] in *.
      destruct Mv as [[-> ->]|[(-> & -> & Hf)|[(l0 & i & s & s' & -> & _ & -> & _)|(l0 & rs & -> & _ & ->)]]]; try discriminate.
      + injection K as <-. apply map_length.
      + injection K as <-. rewrite put_len. exact (In' p _ l0 E eq_refl).
    - intros v q k' xs' I C. apply in_app_or in I. destruct I as [I|[<-|[]]]; [|left; auto].
      destruct (Ip v q k' xs' I C) as [((l & C') & S1 & M1)|(o & D)].
      + destruct (Nat.eq_dec p q) as [<-|NE].
        * rewrite E in C'. injection C' as -> -> ->.
          destruct Mv as [[X _]|[(X & _)|[(l0 & i & s & s' & _ & _ & -> & _)|(l0 & rs & _ & _ & ->)]]]; try discriminate.
          -- left. split; [eexists; exact HERE|]. split; [exact S1|exact M1].
          -- right. eexists. exact HERE.
        * left. split; [exists l; rewrite (THERE q NE); exact C'|]. split; [exact S1|exact M1].
      + destruct (Nat.eq_dec p q) as [<-|NE]; [|right; exists o; rewrite (THERE q NE); exact D].
        rewrite E in D. injection D as -> -> ->. exfalso.
        destruct Mv as [[X _]|[(X & _)|[(l0 & i & s & s' & X & _)|(l0 & rs & X & _)]]]; discriminate.
    - intros q k' xs' l i r x X N' Nx. change (w_set w' k') with (w_set w k'). destruct (PAST q _ X) as [[-> Y]|[D X']].
      + assert (k' = k /\ xs' = xs /\ st' = Running l) as (-> & -> & ->) by (repeat split; congruence).
        destruct Mv as [[_ Z]|[(-> & Z & Hf)|[(l0 & j & s & s' & -> & Ns & Z & Ms)|(l0 & rs & _ & _ & Z)]]]; try discriminate.
        * injection Z as ->. apply nth_error_In in N'. apply in_map_iff in N'. destruct N' as (y & Y' & _). discriminate.
        * injection Z as ->. destruct (Nat.eq_dec j i) as [->|NE].
          -- rewrite (put_nth_same _ _ _ _ Ns) in N'. injection N' as ->. destruct Ms as [[_ Q]|[[_ Q]|(_ & x' & Nx' & Q)]]; try discriminate.
             injection Q as ->. rewrite Nx in Nx'. injection Nx' as <-. exists w. split; [apply in_or_app; left; exact Ih|]. split; [exact (RUN l0 eq_refl)|reflexivity].
          -- rewrite (put_nth_other _ _ _ _ NE) in N'. destruct (If' p k xs l0 i r x E N' Nx) as (v & I & C & R). exists v. split; [apply in_or_app; left; exact I|auto].
      + destruct (If' q k' xs' l i r x X' N' Nx) as (v & I & C & R). exists v. split; [apply in_or_app; left; exact I|auto].
    - intros q k' xs' o X. destruct (PAST q _ X) as [[-> Y]|[D X']].
      + assert (k' = k /\ xs' = xs /\ st' = Done o) as (-> & -> & ->) by (repeat split; congruence).
        destruct Mv as [[_ Z]|[(_ & Z & _)|[(l0 & j & s & s' & _ & _ & Z & _)|(l0 & rs & -> & Fl & Z)]]]; try discriminate. injection Z as ->.
        destruct (filled_models l0 xs rs (fun m => (exists v, In v (tr ++ [w']) /\ computing v p k xs /\ m = w_mod v (mdl k)) /\ (unshared mdl -> m = w_mod w (mdl k))) (w_set w k)) as (ms & L & F & R).
        * exact (In' p _ l0 E eq_refl).
        * exact Fl.
        * intros i r x Ni Nx. destruct (If' p k xs l0 i r x E Ni Nx) as (v & I & C & R). exists (w_mod v (mdl k)). split; [|exact R].
          split; [exists v; split; [apply in_or_app; left; exact I|auto]|]. intros U. destruct (Ip v p k xs I C) as [(_ & _ & M1)|(o' & D')]; [exact (M1 U)|congruence].
        * exists w, ms. split; [apply in_or_app; left; exact Ih|]. split; [exact (RUN l0 eq_refl)|]. split; [exact L|]. split; [exact F|]. rewrite R. reflexivity.
      + destruct (Id q k' xs' o X') as (u & ms & I & C & L & F & R).
        exists u, ms. split; [apply in_or_app; left; exact I|]. split; [exact C|]. split; [exact L|]. split; [|exact R].
        eapply Forall_impl; [|exact F]. intros m [(v & Iv & Cv & Ev) U]. split; [|exact U]. exists v. split; [apply in_or_app; left; exact Iv|auto].
  Qed.

  Lemma label_main (a : label) : a = LMain \/ a <> LMain.
  Proof. destruct a; auto; right; discriminate. Qed.
  Lemma exec_invariant w0 tr w : starting w0 -> exec w0 tr w -> invariant tr w.
  Proof.
    intros S' E. induction E as [|tr w a w' E IH H]; [apply invariant_start; exact S'|].
    destruct (label_main a) as [->|NM]; [exact (invariant_main tr w w' IH H)|exact (invariant_pool tr w a w' IH NM H)].
  Qed.

  (** ** Awaiting at once *)
  (** While the JavaScript thread waits for call [p], nothing changes its tokenizer. *)
  Definition as_called (w0 : world) (k : nat) (xs : list Tx) (st : status Re Ou) : Prop :=
    match st with
    | Queued | Taken => True
    | Running l => length l = length xs /\ forall i r x, nth_error l i = Some (Filled r) -> nth_error xs i = Some x -> r = one (w_set w0 k) (w_mod w0 (mdl k)) x
    | Done o => o = batch one finish (w_set w0 k) (w_mod w0 (mdl k)) xs
    end.
  Lemma filled_all (l : list (slot Re)) (xs : list Tx) rs (g : Tx -> Re) : length l = length xs -> all_filled l = Some rs ->
    (forall i r x, nth_error l i = Some (Filled r) -> nth_error xs i = Some x -> r = g x) -> rs = map g xs.
  Proof.
    revert xs rs. induction l as [|a l IH]; intros xs rs L F H.
    - destruct xs; [|discriminate]. injection F as <-. reflexivity.
    - destruct xs as [|x xs]; [discriminate|]. cbn [all_filled fold_right] in F. fold (all_filled l) in F.
      destruct a as [| | |r]; try discriminate. destruct (all_filled l) as [rs'|] eqn:E; [|discriminate]. injection F as <-.
      cbn [map]. f_equal; [exact (H 0 r x eq_refl eq_refl)|]. apply (IH xs rs'); [cbn [length] in L; lia|reflexivity|]. intros i r' x' A B. exact (H (S i) r' x' A B).
  Qed.
  Definition await_phase (w0 : world) (k : nat) (xs : list Tx) (mid rest : list (stmt St Mo Tx)) (w : world) : Prop :=
    let p := length (w_tasks w0) in
    (w_main w = Free /\ w_prog w = PEncode k xs :: mid ++ rest /\ w_set w = w_set w0 /\ w_mod w = w_mod w0 /\ length (w_tasks w) = p) \/
    (w_main w = Free /\ (exists m, no_change m /\ In (PAwait p) m /\ w_prog w = m ++ rest) /\ w_set w = w_set w0 /\ w_mod w = w_mod w0 /\
     exists st, nth_error (w_tasks w) p = Some (mkTask k xs st) /\ as_called w0 k xs st) \/
    nth_error (w_tasks w) p = Some (mkTask k xs (Done (batch one finish (w_set w0 k) (w_mod w0 (mdl k)) xs))).
  Lemma await_step w0 k xs mid rest a w w' : no_change mid -> In (PAwait (length (w_tasks w0))) mid -> await_phase w0 k xs mid rest w -> step a w = Some w' -> await_phase w0 k xs mid rest w'.
  Proof.
    intros NC IA P H. unfold await_phase in *. set (p := length (w_tasks w0)) in *. destruct (label_main a) as [->|NM].
    - cbn [NodeTaskModel.step] in H. destruct P as [(Mf & Pg & Es & Em & L)|[(Mf & (m & Nm & Im & Pg) & Es & Em & st & Et & Ac)|Et]].
      + unfold step_main in H. rewrite Mf, Pg in H. injection H as <-. right. left. cbn [w_main w_prog w_set w_mod w_tasks]. split; [reflexivity|].
        split; [exists mid; auto|]. split; [exact Es|]. split; [exact Em|].
        exists Queued. split; [|exact I]. rewrite nth_error_app2 by lia. rewrite L, Nat.sub_diag. reflexivity.
      + destruct m as [|c m]; [destruct Im|]. inversion Nm as [|? ? Hc Nm']; subst. cbn [app] in Pg. unfold step_main in H. rewrite Mf, Pg in H.
        destruct c as [k' xs'|k' f|k' f|q]; try contradiction.
        * injection H as <-. right. left. cbn [w_main w_prog w_set w_mod w_tasks]. split; [reflexivity|]. split; [exists m; split; [exact Nm'|]; split; [|reflexivity]; destruct Im as [X|X]; [discriminate|exact X]|].
          split; [exact Es|]. split; [exact Em|]. exists st. split; [|exact Ac]. rewrite nth_error_app1; [exact Et|]. apply nth_error_Some. congruence.
        * destruct (Nat.eq_dec q p) as [->|NE].
          -- rewrite Et in H. cbn [k_status] in H. destruct st as [| | |o]; try discriminate. injection H as <-. right. right. cbn [w_tasks as_called] in *. rewrite Et, Ac. reflexivity.
          -- destruct (nth_error (w_tasks w) q) as [t|]; [|discriminate]. destruct (k_status t); try discriminate. injection H as <-. right. left. cbn [w_main w_prog w_set w_mod w_tasks].
             split; [reflexivity|]. split; [exists m; split; [exact Nm'|]; split; [|reflexivity]; destruct Im as [X|X]; [congruence|exact X]|]. split; [exact Es|]. split; [exact Em|]. exists st. auto.
      + right. right. destruct (main_step w w' H) as (HT & _). rewrite <- Et.
        destruct HT as [HT|(k' & xs' & HT)]; rewrite HT; [reflexivity|]. apply nth_error_app1. apply nth_error_Some. congruence.
    - destruct (pool_step a w w' NM H) as (q & [k' xs' st'] & st2 & E & Mv & ->). cbn [k_tok k_texts k_status] in Mv.
      cbn [set_task w_main w_prog w_set w_mod w_tasks k_tok k_texts]. rewrite put_len.
      destruct P as [P|[(Mf & Pg & Es & Em & st & Et & Ac)|Et]]; [left; exact P| |].
      + right. left. repeat (split; [assumption|]). destruct (Nat.eq_dec q p) as [->|NE]; [|exists st; rewrite put_nth_other by exact NE; auto].
        rewrite E in Et. injection Et as -> -> ->. exists st2. split; [exact (put_nth_same _ _ _ _ E)|].
        destruct Mv as [[-> ->]|[(-> & -> & Hf)|[(l & i & s & s' & -> & Ns & -> & Ms)|(l & rs & -> & Fl & ->)]]].
        * exact I.
        * cbn [as_called]. split; [apply map_length|]. intros i r x N'. apply nth_error_In in N'. apply in_map_iff in N'. destruct N' as (y & Y & _). discriminate.
        * cbn [as_called] in *. destruct Ac as [Ll Af]. split; [rewrite put_len; exact Ll|]. intros j r x N' Nx. destruct (Nat.eq_dec i j) as [<-|NE].
          -- rewrite (put_nth_same _ _ _ _ Ns) in N'. injection N' as ->. destruct Ms as [[_ Q]|[[_ Q]|(_ & x' & Nx' & Q)]]; try discriminate. injection Q as ->.
             rewrite Nx in Nx'. injection Nx' as <-. rewrite Es, Em. reflexivity.
          -- rewrite (put_nth_other _ _ _ _ NE) in N'. exact (Af j r x N' Nx).
        * cbn [as_called] in *. destruct Ac as [Ll Af]. rewrite Es. unfold batch. f_equal. exact (filled_all l xs rs _ Ll Fl Af).
      + right. right. destruct (Nat.eq_dec q p) as [->|NE]; [|rewrite put_nth_other by exact NE; exact Et].
        rewrite E in Et. injection Et as -> -> ->. exfalso. destruct Mv as [[X _]|[(X & _)|[(l0 & i & s & s' & X & _)|(l0 & rs & X & _)]]]; discriminate.
  Qed.
  Lemma await_run w0 k xs mid rest l w w' : no_change mid -> In (PAwait (length (w_tasks w0))) mid -> await_phase w0 k xs mid rest w -> run w l = Some w' -> await_phase w0 k xs mid rest w'.
  Proof.
    intros NC IA. revert w. induction l as [|a l IH]; intros w P H; [injection H as <-; exact P|]. cbn [NodeTaskModel.run] in H.
    destruct (step a w) as [v|] eqn:E; [|discriminate]. exact (IH v (await_step _ _ _ _ _ _ _ _ NC IA P E) H).
  Qed.

  (** ** Steps decrease a measure *)
  Definition slot_weight (s : slot Re) : nat := match s with Todo => 3 | Waits => 2 | Inside => 1 | Filled _ => 0 end.
  Definition task_weight (t : task) : nat :=
    match k_status t with Queued => 3 + 3 * length (k_texts t) | Taken => 2 + 3 * length (k_texts t) | Running l => 1 + list_sum (map slot_weight l) | Done _ => 0 end.
  Definition stmt_weight (c : stmt St Mo Tx) : nat := match c with PEncode _ xs => 4 + 3 * length xs | PSet _ _ => 1 | PTrain _ _ => 3 | PAwait _ => 1 end.
  Definition main_weight (m : main_state St Mo) : nat := match m with Free => 0 | Writing _ _ => 2 | Training _ _ => 1 end.
  Definition weight (w : world) : nat := list_sum (map stmt_weight (w_prog w)) + main_weight (w_main w) + list_sum (map task_weight (w_tasks w)).
  Lemma sum_put {A} (f : A -> nat) l i a x : nth_error l i = Some x -> list_sum (map f (put_nth l i a)) + f x = list_sum (map f l) + f a.
  Proof.
    intros H. destruct (put_split l i a x H) as (l1 & l2 & -> & -> & _). rewrite !map_app, !list_sum_app. cbn [map]. unfold list_sum. cbn [fold_right]. lia.
  Qed.
  Lemma sum_const {A} (l : list A) : list_sum (map slot_weight (map (fun _ => Todo) l)) = 3 * length l.
  Proof. induction l as [|x l IH]; [reflexivity|]. cbn [map length]. unfold list_sum in *. cbn [fold_right slot_weight]. lia. Qed.
  Lemma step_weight a w w' : step a w = Some w' -> weight w' < weight w.
  Proof.
    intros H. unfold weight. destruct (label_main a) as [->|NM].
    - cbn [NodeTaskModel.step] in H. unfold step_main in H. destruct (w_main w) as [|k f|k f]; [destruct (w_prog w) as [|[k xs|k f|k f|q] r]; [discriminate| | | |]|..].
      + injection H as <-. cbn [w_prog w_main w_tasks map main_weight]. rewrite map_app, list_sum_app. unfold list_sum. cbn [fold_right map stmt_weight task_weight k_status k_texts]. lia.
      + destruct reading; [discriminate|]. injection H as <-. cbn [w_prog w_main w_tasks map main_weight]. unfold list_sum. cbn [fold_right stmt_weight]. lia.
      + destruct reading; [discriminate|]. injection H as <-. cbn [w_prog w_main w_tasks map main_weight]. unfold list_sum. cbn [fold_right stmt_weight]. lia.
      + destruct (nth_error (w_tasks w) q) as [t|]; [|discriminate]. destruct (k_status t); try discriminate. injection H as <-.
        cbn [w_prog w_main w_tasks map main_weight]. unfold list_sum. cbn [fold_right stmt_weight]. lia.
      + destruct inside; [discriminate|]. injection H as <-. cbn [w_prog w_main w_tasks main_weight]. lia.
      + destruct (busy w <? workers); [|discriminate]. injection H as <-. cbn [w_prog w_main w_tasks main_weight]. lia.
    - destruct (pool_step a w w' NM H) as (q & [k xs st] & st' & E & Mv & ->). cbn [k_tok k_texts k_status] in Mv. cbn [set_task w_prog w_main w_tasks k_tok k_texts].
      pose proof (sum_put task_weight (w_tasks w) q (mkTask k xs st') _ E) as X.
      assert (Y : task_weight (mkTask k xs st') < task_weight (mkTask k xs st)); [|lia].
      unfold task_weight. cbn [k_status k_texts]. destruct Mv as [[-> ->]|[(-> & -> & Hf)|[(l & i & s & s' & -> & Ns & -> & Ms)|(l & rs & -> & Fl & ->)]]].
      + lia.
      + rewrite sum_const. lia.
      + pose proof (sum_put slot_weight l i s' _ Ns) as Z. destruct Ms as [[-> ->]|[[-> ->]|(-> & x & _ & ->)]]; cbn [slot_weight] in Z; lia.
      + lia.
  Qed.
  Lemma run_weight w l w' : run w l = Some w' -> length l + weight w' <= weight w.
  Proof.
    revert w. induction l as [|a l IH]; intros w H; [injection H as <-; cbn [length]; lia|]. cbn [NodeTaskModel.run] in H.
    destruct (step a w) as [v|] eqn:E; [|discriminate]. pose proof (step_weight _ _ _ E). pose proof (IH v H). cbn [length]. lia.
  Qed.

  (** ** Nobody waits for ever *)
  Definition can (w : world) : Prop := exists a w', step a w = Some w'.
  Lemma run_awaits w l w' : run w l = Some w' -> awaits_made (length (w_tasks w)) (w_prog w) -> awaits_made (length (w_tasks w')) (w_prog w').
  Proof.
    revert w. induction l as [|a l IH]; intros w H A; [injection H as <-; exact A|]. cbn [NodeTaskModel.run] in H.
    destruct (step a w) as [v|] eqn:E; [|discriminate]. apply (IH v H). clear IH H. destruct (label_main a) as [->|NM].
    - cbn [NodeTaskModel.step] in E. unfold step_main in E. destruct (w_main w) as [|k f|k f]; [destruct (w_prog w) as [|[k xs|k f|k f|q] r]; [discriminate| | | |]|..]; cbn [awaits_made] in A.
      + injection E as <-. cbn [w_tasks w_prog]. rewrite app_length. cbn [length]. rewrite Nat.add_1_r. exact A.
      + destruct reading; [discriminate|]. injection E as <-. exact A.
      + destruct reading; [discriminate|]. injection E as <-. exact A.
      + destruct (nth_error (w_tasks w) q) as [t|]; [|discriminate]. destruct (k_status t); try discriminate. injection E as <-. exact (proj2 A).
      + destruct inside; [discriminate|]. injection E as <-. exact A.
      + destruct (busy w <? workers); [|discriminate]. injection E as <-. exact A.
    - destruct (pool_step a w v NM E) as (q & t & st' & _ & _ & ->). cbn [set_task w_tasks w_prog]. rewrite put_len. exact A.
  Qed.
  Lemma slot_can w p t l i s next s' a : nth_error (w_tasks w) p = Some t -> k_status t = Running l -> nth_error l i = Some s -> next t s = Some s' ->
    step a w = step_slot w p i next -> can w.
  Proof. intros E K N' X A. unfold can. exists a. rewrite A. unfold step_slot. rewrite E, K, N', X. eauto. Qed.
  (** A worker that has a model gives it back. *)
  Lemma inside_can tr w p t l i : invariant tr w -> nth_error (w_tasks w) p = Some t -> k_status t = Running l -> nth_error l i = Some Inside -> can w.
  Proof.
    intros Iv E K N'. pose proof (i_len _ _ Iv p t l E K) as L.
    destruct (nth_error (k_texts t) i) as [x|] eqn:X; [|apply nth_error_None in X; assert (i < length l) by (apply nth_error_Some; congruence); lia].
    eapply (slot_can w p t l i Inside _ _ (LLeave p i) E K N'); [|reflexivity]. cbn beta iota. rewrite X. reflexivity.
  Qed.
  Lemma busy_find w : 0 < busy w -> exists p t l i s, nth_error (w_tasks w) p = Some t /\ k_status t = Running l /\ nth_error l i = Some s /\ is_busy s = true.
  Proof.
    unfold busy. intros H. assert (X : exists t, In t (w_tasks w) /\ 0 < length (filter is_busy (slots t))).
    { induction (w_tasks w) as [|t ts IH]; [cbn in H; lia|]. cbn [map] in H. unfold list_sum in H. cbn [fold_right] in H. destruct (length (filter is_busy (slots t))) as [|n] eqn:E.
      - destruct IH as (t' & I & Q); [unfold list_sum; lia|]. exists t'. split; [right; exact I|exact Q].
      - exists t. split; [left; reflexivity|lia]. }
    destruct X as (t & It & Q). apply In_nth_error in It. destruct It as (p & E). unfold slots in Q. destruct (k_status t) as [| |l|] eqn:K; try (cbn in Q; lia).
    destruct (filter is_busy l) as [|s r] eqn:F; [cbn in Q; lia|]. assert (Is : In s (filter is_busy l)) by (rewrite F; left; reflexivity). apply filter_In in Is. destruct Is as [Is B].
    apply In_nth_error in Is. destruct Is as (i & Ni). exists p, t, l, i, s. auto.
  Qed.
  (** A busy worker goes on, unless it waits for a model that is being trained. *)
  Lemma busy_can tr w p t l i s : invariant tr w -> nth_error (w_tasks w) p = Some t -> k_status t = Running l -> nth_error l i = Some s -> is_busy s = true ->
    held_model mdl (mdl (k_tok t)) w = false -> can w.
  Proof.
    intros Iv E K N' B Hm. destruct s; try discriminate; [|exact (inside_can tr w p t l i Iv E K N')].
    destruct (pref && wanted_model mdl (mdl (k_tok t)) w) eqn:W.
    - apply andb_prop in W. destruct W as [_ W]. unfold wanted_model in W. destruct (w_main w) as [|k f|k f]; try discriminate. apply andb_prop in W. destruct W as [_ W].
      unfold inside in W. apply existsb_exists in W. destruct W as (t' & It & Q). apply andb_prop in Q. destruct Q as [_ Q]. apply existsb_exists in Q. destruct Q as (s & Is & Q).
      destruct s; try discriminate. apply In_nth_error in It. destruct It as (p' & E'). unfold slots in Is. destruct (k_status t') as [| |l'|] eqn:K'; try (exfalso; exact Is).
      apply In_nth_error in Is. destruct Is as (i' & Ni). exact (inside_can tr w p' t' l' i' Iv E' K' Ni).
    - eapply (slot_can w p t l i Waits _ _ (LEnter p i) E K N'); [|reflexivity]. cbn beta iota. rewrite Hm, W. reflexivity.
  Qed.
  Lemma all_or_not (l : list (slot Re)) : (exists rs, all_filled l = Some rs) \/ exists i s, nth_error l i = Some s /\ (s = Todo \/ is_busy s = true).
  Proof.
    induction l as [|s l IH]; [left; exists []; reflexivity|]. destruct s as [| | |r].
    - right. exists 0, Todo. auto.
    - right. exists 0, Waits. auto.
    - right. exists 0, Inside. auto.
    - destruct IH as [(rs & F)|(i & s & N' & Q)].
      + left. exists (r :: rs). cbn [all_filled fold_right]. fold (all_filled l). rewrite F. reflexivity.
      + right. exists (S i), s. auto.
  Qed.
  (** A running task goes on, when nothing is being trained. *)
  Lemma running_can tr w p t : invariant tr w -> 1 <= workers -> nth_error (w_tasks w) p = Some t -> is_running t = true -> w_main w = Free -> can w.
  Proof.
    intros Iv Wk E R Mf. assert (HM : forall m, held_model mdl m w = false) by (intros m; unfold held_model; rewrite Mf; reflexivity).
    unfold is_running in R. destruct (k_status t) as [| |l|] eqn:K; try discriminate.
    destruct (all_or_not l) as [(rs & F)|(i & s & N' & [->|B])].
    - exists (LFinish p). cbn [NodeTaskModel.step]. rewrite E, K, F. eauto.
    - destruct (busy w <? workers) eqn:Bz.
      + eapply (slot_can w p t l i Todo _ _ (LPick p i) E K N'); [|reflexivity]. cbn beta iota. rewrite Bz. reflexivity.
      + destruct (busy_find w ltac:(lia)) as (p' & t' & l' & i' & s' & E' & K' & Ni' & B'). exact (busy_can tr w p' t' l' i' s' Iv E' K' Ni' B' (HM _)).
    - exact (busy_can tr w p t l i s Iv E K N' B (HM _)).
  Qed.
  Lemma unfinished_can tr w p t : invariant tr w -> 1 <= workers -> 1 <= threads -> nth_error (w_tasks w) p = Some t -> (forall o, k_status t <> Done o) -> w_main w = Free ->
    (forall k, wanted k w = false) -> can w.
  Proof.
    intros Iv Wk Th E ND Mf Wn.
    assert (OT : forall p t, nth_error (w_tasks w) p = Some t -> on_thread t = true -> can w).
    { clear p t E ND. intros p t E O. unfold on_thread in O. destruct (k_status t) as [| |l|] eqn:K; try discriminate.
      - exists (LStart p). cbn [NodeTaskModel.step]. rewrite E, K. unfold held. rewrite Mf, Wn, andb_false_r. cbn [orb]. eauto.
      - apply (running_can tr w p t Iv Wk E); [unfold is_running; rewrite K; reflexivity|exact Mf]. }
    destruct (k_status t) as [| |l|o] eqn:K.
    - destruct (occupied w <? threads) eqn:O.
      + exists (LTake p). cbn [NodeTaskModel.step]. rewrite E, K, O. eauto.
      + unfold occupied in O. destruct (filter on_thread (w_tasks w)) as [|t' r] eqn:F; [cbn [length] in O; lia|].
        assert (It : In t' (filter on_thread (w_tasks w))) by (rewrite F; left; reflexivity). apply filter_In in It. destruct It as [It Q].
        apply In_nth_error in It. destruct It as (p' & E'). exact (OT p' t' E' Q).
    - apply (OT p t E). unfold on_thread. rewrite K. reflexivity.
    - apply (OT p t E). unfold on_thread. rewrite K. reflexivity.
    - exfalso. exact (ND o eq_refl).
  Qed.
  Lemma done_or_not (ts : list task) : (forall p t, nth_error ts p = Some t -> exists o, k_status t = Done o) \/ exists p t, nth_error ts p = Some t /\ forall o, k_status t <> Done o.
  Proof.
    induction ts as [|t ts [IH|(p & t' & E & ND)]].
    - left. intros [|p] t E; discriminate.
    - destruct (k_status t) as [| | |o] eqn:K; [right; exists 0, t; split; [reflexivity|congruence]..|]. left. intros [|p] t' E; [injection E as <-; eauto|exact (IH p t' E)].
    - right. exists (S p), t'. auto.
  Qed.
  Lemma progress tr w : invariant tr w -> unshared mdl -> 1 <= workers -> 1 <= threads -> awaits_made (length (w_tasks w)) (w_prog w) -> over w \/ can w.
  Proof.
    intros Iv U Wk Th A. destruct (w_main w) as [|k f|k f] eqn:Mn.
    - destruct (w_prog w) as [|[k xs|k f|k f|q] r] eqn:Pg.
      + destruct (done_or_not (w_tasks w)) as [D|(p & t & E & ND)]; [left; split; [exact Pg|split; [exact Mn|exact D]]|right].
        apply (unfinished_can tr w p t Iv Wk Th E ND Mn). intros k. unfold wanted. rewrite Mn, Pg. reflexivity.
      + right. exists LMain. cbn [NodeTaskModel.step]. unfold step_main. rewrite Mn, Pg. eauto.
      + right. destruct (reading k w) eqn:R.
        * destruct (reading_yes k w R) as (p & t & E & _ & Q). exact (running_can tr w p t Iv Wk E Q Mn).
        * exists LMain. cbn [NodeTaskModel.step]. unfold step_main. rewrite Mn, Pg, R. eauto.
      + right. destruct (reading k w) eqn:R.
        * destruct (reading_yes k w R) as (p & t & E & _ & Q). exact (running_can tr w p t Iv Wk E Q Mn).
        * exists LMain. cbn [NodeTaskModel.step]. unfold step_main. rewrite Mn, Pg, R. eauto.
      + right. cbn [awaits_made] in A. destruct A as [Lq _]. destruct (nth_error (w_tasks w) q) as [t|] eqn:E; [|apply nth_error_None in E; lia].
        destruct (k_status t) as [| | |o] eqn:K.
        4: { exists LMain. cbn [NodeTaskModel.step]. unfold step_main. rewrite Mn, Pg, E, K. eauto. }
        all: apply (unfinished_can tr w q t Iv Wk Th E ltac:(congruence) Mn); intros k; unfold wanted; rewrite Mn, Pg; reflexivity.
    - right. destruct (inside mdl (mdl k) w) eqn:In'.
      + unfold inside in In'. apply existsb_exists in In'. destruct In' as (t & It & Q). apply andb_prop in Q. destruct Q as [_ Q]. apply existsb_exists in Q. destruct Q as (s & Is & Q).
        destruct s; try discriminate. apply In_nth_error in It. destruct It as (p & E). unfold slots in Is. destruct (k_status t) as [| |l|] eqn:K; try (exfalso; exact Is).
        apply In_nth_error in Is. destruct Is as (i & Ni). exact (inside_can tr w p t l i Iv E K Ni).
      + exists LMain. cbn [NodeTaskModel.step]. unfold step_main. rewrite Mn, In'. eauto.
    - right. destruct (busy w <? workers) eqn:B.
      + exists LMain. cbn [NodeTaskModel.step]. unfold step_main. rewrite Mn, B. eauto.
      + destruct (busy_find w ltac:(lia)) as (p & t & l & i & s & E & K & Ni & Bs). apply (busy_can tr w p t l i s Iv E K Ni Bs).
        unfold held_model. rewrite Mn. destruct (mdl k =? mdl (k_tok t)) eqn:D; [|reflexivity]. exfalso. assert (k = k_tok t) by (apply U; lia).
        assert (Hd : held k w = true) by (unfold held; rewrite Mn; apply Nat.eqb_refl).
        pose proof (i_lock _ _ Iv k p t Hd E ltac:(congruence)) as X. unfold is_running in X. rewrite K in X. discriminate.
  Qed.
  Lemma run_app w l l' : run w (l ++ l') = match run w l with Some w' => run w' l' | None => None end.
  Proof. revert w. induction l as [|a l IH]; intros w; [reflexivity|]. cbn [app NodeTaskModel.run]. destruct (step a w); [apply IH|reflexivity]. Qed.
  Lemma finishes w0 : starting w0 -> unshared mdl -> 1 <= workers -> 1 <= threads -> awaits_made 0 (w_prog w0) ->
    forall n l w, weight w <= n -> run w0 l = Some w -> exists l' w', run w0 (l ++ l') = Some w' /\ over w'.
  Proof.
    intros S' U Wk Th A. induction n as [|n IH]; intros l w L H.
    all: pose proof (exec_invariant _ _ _ S' (run_states _ _ _ H)) as Iv.
    all: assert (A' : awaits_made (length (w_tasks w)) (w_prog w)) by (apply (run_awaits _ _ _ H); rewrite (proj1 S'); exact A).
    all: destruct (progress _ w Iv U Wk Th A') as [O|(a & w' & E)]; [exists [], w; rewrite app_nil_r; auto|].
    - pose proof (step_weight _ _ _ E). lia.
    - pose proof (step_weight _ _ _ E). destruct (IH (l ++ [a]) w') as (l' & v & R & O); [lia| |].
      + rewrite run_app, H. cbn [NodeTaskModel.run]. rewrite E. reflexivity.
      + exists (a :: l'), v. rewrite <- app_assoc in R. auto.
  Qed.
End proofs.
