(** C95: promises of the Node.js bindings.  [one] is what a text gives with settings and a model,
    [finish] what is made of a batch; they are arbitrary, as are the numbers of threads and
    workers and the fairness of the locks. *)
From Verif Require Import Base ListFacts NodeTaskModel NodeTaskSpec NodeTaskProofs.

Section props.
  Context {St Mo Tx Re Ou : Type} (one : St -> Mo -> Tx -> Re) (finish : St -> list Re -> Ou).
  Context (mdl : nat -> nat) (threads workers : nat) (pref : bool).
  Notation run := (run one finish mdl threads workers pref).
  Notation states := (states one finish mdl threads workers pref).

  (** Whatever the schedule, and whoever shares models: a promise resolves to what one setting
      of the tokenizer, and for each text one model, give; both those of moments in which the
      call was being computed. *)
  Theorem C95_general : forall w0 l w p k xs o, starting w0 -> run w0 l = Some w -> gave w p k xs o ->
    exists u ms, In u (states w0 l) /\ computing u p k xs /\ length ms = length xs /\
      Forall (fun m => exists v, In v (states w0 l) /\ computing v p k xs /\ m = model_in mdl v k) ms /\
      o = finish (settings_in u k) (map (fun mx => one (settings_in u k) (fst mx) (snd mx)) (combine ms xs)).
  Proof.
    intros w0 l w p k xs o S' H G. pose proof (exec_invariant _ _ _ _ _ _ _ _ _ S' (run_states _ _ _ _ _ _ _ _ _ H)) as Iv.
    destruct (i_done _ _ _ _ _ Iv p k xs o G) as (u & ms & I & C & L & F & E). exists u, ms. split; [exact I|]. split; [exact C|]. split; [exact L|]. split; [|exact E].
    eapply Forall_impl; [|exact F]. intros m [X _]. exact X.
  Qed.

  (** When tokenizers do not share models: a promise resolves to what the batch gives with the
      settings and the model of one moment in which the call was being computed.  Batches see
      changes of the tokenizer as a whole or not at all. *)
  Theorem C95_atomic : forall w0 l w p k xs o, starting w0 -> unshared mdl -> run w0 l = Some w -> gave w p k xs o ->
    exists u, In u (states w0 l) /\ computing u p k xs /\ o = batch one finish (settings_in u k) (model_in mdl u k) xs.
  Proof.
    intros w0 l w p k xs o S' U H G. pose proof (exec_invariant _ _ _ _ _ _ _ _ _ S' (run_states _ _ _ _ _ _ _ _ _ H)) as Iv.
    destruct (i_done _ _ _ _ _ Iv p k xs o G) as (u & ms & I & C & L & F & E). exists u. split; [exact I|]. split; [exact C|]. rewrite E. unfold batch. f_equal.
    assert (F' : Forall (fun m => m = model_in mdl u k) ms) by (eapply Forall_impl; [|exact F]; intros m [_ X]; exact (X U)).
    clear E G C I F. revert xs L. induction F' as [|m ms X F IH]; intros xs L; [destruct xs; [reflexivity|discriminate]|].
    destruct xs as [|x xs]; [discriminate|]. cbn [combine map fst snd]. f_equal; [rewrite X; reflexivity|]. apply IH. cbn [length] in L. lia.
  Qed.

  (** A call whose promise is awaited before anything changes a tokenizer (other calls may be
      made and awaited meanwhile) gives what the batch gives with the settings and the model
      that the tokenizer had at the call, even with shared models. *)
  Theorem C95_await : forall w l w' k xs mid rest,
    w_main w = Free -> w_prog w = PEncode k xs :: mid ++ rest -> no_change mid -> In (PAwait (length (w_tasks w))) mid ->
    run w l = Some w' -> w_prog w' = rest ->
    gave w' (length (w_tasks w)) k xs (batch one finish (settings_in w k) (model_in mdl w k) xs).
  Proof.
    intros w l w' k xs mid rest Mf Pg NC IA H E.
    destruct (await_run one finish mdl threads workers pref w k xs mid rest l w w' NC IA) as [(_ & X & _)|[(_ & (m & _ & Im & X) & _)|X]].
    - left. auto.
    - exact H.
    - exfalso. rewrite E in X. apply (f_equal (@length _)) in X. cbn [length] in X. rewrite app_length in X. lia.
    - exfalso. rewrite E in X. apply (f_equal (@length _)) in X. rewrite app_length in X. destruct m; [destruct Im|cbn [length] in X; lia].
    - exact X.
  Qed.

  (** No execution goes on for ever. *)
  Theorem C95_bounded : forall w0, exists n, forall l w, run w0 l = Some w -> length l <= n.
  Proof. intros w0. exists (weight w0). intros l w H. pose proof (run_weight one finish mdl threads workers pref w0 l w H). lia. Qed.

  (** When tokenizers do not share models, nobody waits for ever: whatever has happened, the
      program is over with every promise resolved, or something can happen; and every
      execution can be completed. *)
  Theorem C95_progress : forall w0 l w, starting w0 -> unshared mdl -> 1 <= workers -> 1 <= threads -> awaits_made 0 (w_prog w0) ->
    run w0 l = Some w -> over w \/ exists a w', step one finish mdl threads workers pref a w = Some w'.
  Proof.
    intros w0 l w S' U Wk Th A H. pose proof (exec_invariant _ _ _ _ _ _ _ _ _ S' (run_states _ _ _ _ _ _ _ _ _ H)) as Iv.
    apply (progress one finish mdl threads workers pref (states w0 l) w Iv U Wk Th). apply (run_awaits one finish mdl threads workers pref w0 l w H). rewrite (proj1 S'). exact A.
  Qed.
  Theorem C95_completes : forall w0 l w, starting w0 -> unshared mdl -> 1 <= workers -> 1 <= threads -> awaits_made 0 (w_prog w0) ->
    run w0 l = Some w -> exists l' w', run w0 (l ++ l') = Some w' /\ over w'.
  Proof. intros w0 l w S' U Wk Th A H. exact (finishes one finish mdl threads workers pref w0 S' U Wk Th A (weight w) l w (le_n _) H). Qed.
  (** Results do not change once they are there. *)
  Theorem C95_final : forall w l w' p k xs o, gave w p k xs o -> run w l = Some w' -> gave w' p k xs o.
  Proof.
    intros w l w' p k xs o. revert w. induction l as [|a l IH]; intros w G H; [injection H as <-; exact G|]. cbn [NodeTaskModel.run] in H.
    destruct (step one finish mdl threads workers pref a w) as [v|] eqn:E; [|discriminate]. apply (IH v); [|exact H]. unfold gave in *.
    destruct (label_main a) as [->|NM].
    - destruct (main_step mdl workers w v E) as ([HT|(k' & xs' & HT)] & _); rewrite HT; [exact G|]. rewrite nth_error_app1; [exact G|]. apply nth_error_Some. congruence.
    - destruct (pool_step one finish mdl threads workers pref a w v NM E) as (q & t & st' & Eq & Mv & ->). destruct (Nat.eq_dec q p) as [->|NE]; [|rewrite set_at_other by exact NE; exact G].
      rewrite G in Eq. injection Eq as <-. cbn [k_status] in Mv. exfalso. destruct Mv as [[X _]|[(X & _)|[(l0 & i & s & s' & X & _)|(l0 & rs & X & _)]]]; discriminate.
  Qed.
End props.

(** ** Concrete executions *)
Definition ex_one (s m x : nat) : nat * nat * nat := (s, m, x).
Definition ex_finish (s : nat) (l : list (nat * nat * nat)) : list (nat * nat * nat) := l.
Definition ex_world (prog : list (stmt nat nat nat)) : world nat nat nat (nat * nat * nat) (list (nat * nat * nat)) := mkWorld (fun k => k) (fun m => 10 + m) [] prog Free.
Definition ex_prog : list (stmt nat nat nat) := [PEncode 0 [5; 6]; PEncode 1 [7]; PAwait 0; PTrain 0 (fun s m => (S s, S m)); PAwait 1].
Definition ex_labels : list label :=
  [LMain; LTake 0; LMain; LStart 0; LPick 0 1; LEnter 0 1; LPick 0 0; LTake 1; LLeave 0 1; LEnter 0 0; LStart 1; LLeave 0 0; LFinish 0; LMain; LMain; LPick 1 0; LMain; LEnter 1 0; LMain; LLeave 1 0; LFinish 1; LMain].
Example C95_example :
  unshared (fun k => k) /\ starting (ex_world ex_prog) /\ awaits_made 0 ex_prog /\
  exists w, run ex_one ex_finish (fun k => k) 4 2 true (ex_world ex_prog) ex_labels = Some w /\ over w /\
    gave w 0 0 [5; 6] [(0, 10, 5); (0, 10, 6)] /\ gave w 1 1 [7] [(1, 11, 7)] /\ settings_in w 0 = 1.
Proof.
  split; [intros k k' H; exact H|]. split; [split; reflexivity|]. split; [cbn; lia|].
  destruct (run ex_one ex_finish (fun k => k) 4 2 true (ex_world ex_prog) ex_labels) as [w|] eqn:E; [|vm_compute in E; discriminate].
  exists w. vm_compute in E. injection E as <-. split; [reflexivity|]. split; [|split; [|split]; reflexivity].
  split; [reflexivity|]. split; [reflexivity|]. intros [|[|[|p]]] t H; try discriminate; injection H as <-; eexists; reflexivity.
Qed.
(** [C95_await]: the first call of [ex_prog], awaited after the second was made. *)
Example C95_await_example : exists w, run ex_one ex_finish (fun _ => 0) 4 2 true (ex_world ex_prog) (firstn 14 ex_labels) = Some w /\
  w_prog w = skipn 3 ex_prog /\ no_change (firstn 2 (skipn 1 ex_prog)) /\ In (PAwait 0) (firstn 2 (skipn 1 ex_prog)).
Proof.
  destruct (run ex_one ex_finish (fun _ => 0) 4 2 true (ex_world ex_prog) (firstn 14 ex_labels)) as [w|] eqn:E; [|vm_compute in E; discriminate].
  exists w. vm_compute in E. injection E as <-. split; [reflexivity|]. split; [reflexivity|]. split; [repeat constructor|right; left; reflexivity].
Qed.

(** ** What does not hold *)
(** A change made after a call and before its promise is awaited may reach the call or not: the
    same program gives two results. *)
Theorem C95_late_refuted : exists w0 l1 l2 w1 w2 o1 o2, starting w0 /\
  run ex_one ex_finish (fun k => k) 4 2 true w0 l1 = Some w1 /\ run ex_one ex_finish (fun k => k) 4 2 true w0 l2 = Some w2 /\
  over w1 /\ over w2 /\ gave w1 0 0 [7] o1 /\ gave w2 0 0 [7] o2 /\ o1 <> o2.
Proof.
  set (w0 := ex_world [PEncode 0 [7]; PSet 0 S; PAwait 0]).
  set (l1 := [LMain; LTake 0; LStart 0; LPick 0 0; LEnter 0 0; LLeave 0 0; LFinish 0; LMain; LMain] : list label).
  set (l2 := [LMain; LTake 0; LMain; LStart 0; LPick 0 0; LEnter 0 0; LLeave 0 0; LFinish 0; LMain] : list label).
  destruct (run ex_one ex_finish (fun k => k) 4 2 true w0 l1) as [w1|] eqn:E1; [|vm_compute in E1; discriminate].
  destruct (run ex_one ex_finish (fun k => k) 4 2 true w0 l2) as [w2|] eqn:E2; [|vm_compute in E2; discriminate].
  exists w0, l1, l2, w1, w2, [(0, 10, 7)], [(1, 10, 7)]. split; [split; reflexivity|]. split; [exact E1|]. split; [exact E2|].
  vm_compute in E1, E2. injection E1 as <-. injection E2 as <-.
  split; [split; [reflexivity|]; split; [reflexivity|]; intros [|[|p]] t H; try discriminate; injection H as <-; eexists; reflexivity|].
  split; [split; [reflexivity|]; split; [reflexivity|]; intros [|[|p]] t H; try discriminate; injection H as <-; eexists; reflexivity|].
  split; [reflexivity|]. split; [reflexivity|discriminate].
Qed.
(** With a model shared by two tokenizers, training through one of them while the other encodes
    a batch gives a batch that no single model explains. *)
Theorem C95_mixed_refuted : exists w0 l w o, starting w0 /\ run ex_one ex_finish (fun _ => 0) 4 2 true w0 l = Some w /\ over w /\ gave w 0 1 [5; 6] o /\
  forall s m, o <> batch ex_one ex_finish s m [5; 6].
Proof.
  set (w0 := ex_world [PEncode 1 [5; 6]; PTrain 0 (fun s m => (s, S m)); PAwait 0]).
  set (l := [LMain; LTake 0; LStart 0; LPick 0 0; LEnter 0 0; LLeave 0 0; LMain; LMain; LMain; LPick 0 1; LEnter 0 1; LLeave 0 1; LFinish 0; LMain] : list label).
  destruct (run ex_one ex_finish (fun _ => 0) 4 2 true w0 l) as [w|] eqn:E; [|vm_compute in E; discriminate].
  exists w0, l, w, [(1, 10, 5); (1, 11, 6)]. split; [split; reflexivity|]. split; [exact E|]. vm_compute in E. injection E as <-.
  split; [split; [reflexivity|]; split; [reflexivity|]; intros [|[|p]] t H; try discriminate; injection H as <-; eexists; reflexivity|].
  split; [reflexivity|]. intros s m H. vm_compute in H. congruence.
Qed.

(** With a model shared by two tokenizers, a program can come to a halt for ever, for every
    number of workers: all of them wait for the model that is being trained, and the training
    waits for a worker. *)
Definition stuck_task (n j : nat) : task nat (nat * nat * nat) (list (nat * nat * nat)) := mkTask 1 (repeat 5 n) (Running (repeat Waits j ++ repeat Todo (n - j))).
Definition stuck_world (n j : nat) : world nat nat nat (nat * nat * nat) (list (nat * nat * nat)) :=
  mkWorld (fun k => k) (fun m => 10 + m) [stuck_task n j] [PTrain 0 (fun s m => (s, S m)); PAwait 0] Free.
Lemma put_repeat {A} (a b : A) j r : put_nth (repeat a j ++ b :: r) j a = repeat a (S j) ++ r.
Proof. induction j as [|j IH]; [reflexivity|]. cbn [repeat app put_nth] in *. rewrite IH. reflexivity. Qed.
Lemma nth_repeat {A} (a b : A) j r : nth_error (repeat a j ++ b :: r) j = Some b.
Proof. induction j as [|j IH]; [reflexivity|]. exact IH. Qed.
Lemma busy_repeat (j n : nat) : length (filter (@is_busy (nat * nat * nat)) (repeat Waits j ++ repeat Todo n)) = j.
Proof. induction j as [|j IH]; [induction n as [|n IH]; [reflexivity|exact IH]|]. cbn [repeat app filter is_busy length]. rewrite IH. reflexivity. Qed.
Lemma stuck_picks threads workers pref j : j <= workers ->
  run ex_one ex_finish (fun _ => 0) threads workers pref (stuck_world workers 0) (map (LPick 0) (seq 0 j)) = Some (stuck_world workers j).
Proof.
  induction j as [|j IH]; intros H; [reflexivity|]. rewrite seq_S, map_app, run_app, IH by lia. cbn [map plus run].
  assert (X : step ex_one ex_finish (fun _ => 0) threads workers pref (LPick 0 j) (stuck_world workers j) = Some (stuck_world workers (S j))); [|rewrite X; reflexivity].
  cbn [step]. unfold step_slot, stuck_world. cbn [w_tasks nth_error stuck_task k_status]. replace (workers - j) with (S (workers - S j)) by lia. cbn [repeat].
  rewrite nth_repeat. unfold busy. cbn [w_tasks map slots stuck_task k_status]. replace (workers - j) with (S (workers - S j)) by lia. rewrite busy_repeat. unfold list_sum. cbn [fold_right].
  replace (j + 0 <? workers) with true by lia. unfold set_task. cbn [w_set w_mod w_tasks w_prog w_main put_nth k_tok k_texts]. rewrite put_repeat. reflexivity.
Qed.
Theorem C95_deadlock_refuted : forall threads workers pref, 1 <= threads -> 1 <= workers ->
  exists mdl w0 l w, starting w0 /\ awaits_made 0 (w_prog w0) /\ run ex_one ex_finish mdl threads workers pref w0 l = Some w /\
    ~ over w /\ forall a, step ex_one ex_finish mdl threads workers pref a w = None.
Proof.
  intros threads workers pref Th Wk.
  set (w0 := ex_world [PEncode 1 (repeat 5 workers); PTrain 0 (fun s m => (s, S m)); PAwait 0]).
  exists (fun _ => 0), w0, ([LMain; LTake 0; LStart 0] ++ map (LPick 0) (seq 0 workers) ++ [LMain; LMain]),
    (mkWorld (fun k => k) (fun m => 10 + m) [stuck_task workers workers] [PAwait 0] (Training 0 (fun s m => (s, S m)))).
  split; [split; reflexivity|]. split; [cbn; lia|].
  assert (SL : repeat (@Waits (nat * nat * nat)) workers ++ repeat Todo (workers - workers) = repeat Waits workers) by (rewrite Nat.sub_diag; apply app_nil_r).
  split; [|split].
  - rewrite run_app.
    assert (X : run ex_one ex_finish (fun _ => 0) threads workers pref w0 [LMain; LTake 0; LStart 0] = Some (stuck_world workers 0)).
    { cbn [run step step_main w_main w0 ex_world w_prog w_tasks w_set w_mod app nth_error k_status occupied filter on_thread length].
      replace (0 <? threads) with true by lia. unfold set_task. cbn [w_tasks nth_error put_nth k_status k_tok held w_main wanted w_prog]. cbn [reading w_tasks existsb k_tok is_running k_status].
      unfold set_task, stuck_world, stuck_task. cbn [orb w_set w_mod w_tasks put_nth k_tok k_texts w_prog w_main repeat app]. rewrite Nat.sub_0_r.
      replace (map (fun _ : nat => @Todo (nat * nat * nat)) (repeat 5 workers)) with (repeat (@Todo (nat * nat * nat)) workers); [destruct pref; reflexivity|].
      clear. induction workers as [|n IH]; [reflexivity|]. cbn [repeat map]. rewrite IH. reflexivity. }
    rewrite X, run_app, stuck_picks by lia.
    set (mid := mkWorld (fun k => k) (fun m => 10 + m) [stuck_task workers workers] [PAwait 0] (Writing 0 (fun s m => (s, S m))) : world nat nat nat (nat * nat * nat) (list (nat * nat * nat))).
    change (run ex_one ex_finish (fun _ => 0) threads workers pref (stuck_world workers workers) [LMain; LMain])
      with (run ex_one ex_finish (fun _ => 0) threads workers pref mid [LMain]).
    cbn [run step]. unfold step_main. change (w_main mid) with (Writing 0 (fun s m : nat => (s, S m))). cbn iota.
    assert (NI : inside (fun _ : nat => 0) 0 mid = false); [|rewrite NI; reflexivity].
    unfold inside. cbn [mid w_tasks existsb stuck_task k_tok slots k_status]. rewrite SL.
    replace (existsb is_inside (repeat (@Waits (nat * nat * nat)) workers)) with false; [reflexivity|].
    clear. induction workers as [|n IH]; [reflexivity|exact IH].
  - intros (X & _). discriminate.
  - intros a. assert (SLOT : forall i s, nth_error (repeat (@Waits (nat * nat * nat)) workers ++ repeat Todo (workers - workers)) i = Some s -> s = Waits).
    { rewrite SL. intros i s H. apply nth_error_In in H. exact (repeat_spec _ _ _ H). }
    destruct a as [|p|p|p i|p i|p i|p]; cbn [step]; unfold step_main, step_slot; cbn [w_main w_tasks].
    + unfold busy. cbn [w_tasks map slots stuck_task k_status]. rewrite busy_repeat. unfold list_sum. cbn [fold_right]. replace (workers + 0 <? workers) with false by lia. reflexivity.
    + destruct p as [|[|p]]; reflexivity.
    + destruct p as [|[|p]]; reflexivity.
    + destruct p as [|[|p]]; [|reflexivity..]. cbn [nth_error stuck_task k_status]. destruct nth_error as [s|] eqn:E; [|reflexivity]. rewrite (SLOT i s E). reflexivity.
    + destruct p as [|[|p]]; [|reflexivity..]. cbn [nth_error stuck_task k_status]. destruct nth_error as [s|] eqn:E; [|reflexivity]. rewrite (SLOT i s E). reflexivity.
    + destruct p as [|[|p]]; [|reflexivity..]. cbn [nth_error stuck_task k_status]. destruct nth_error as [s|] eqn:E; [|reflexivity]. rewrite (SLOT i s E). reflexivity.
    + destruct p as [|[|p]]; [|reflexivity..]. cbn [nth_error stuck_task k_status]. destruct workers as [|n]; [lia|]. reflexivity.
Qed.
