(** Threads that share a tokenizer (C85). *)
From Verif Require Import Base PyLockModel PyLockSpec PyLockProofs.

Section locks.
  Context {S R : Type} (prefer : bool).
  Notation call := (call S R). Notation act := (act S R). Notation tstate := (tstate S R). Notation machine := (machine S R).

  (** Whatever the threads and the schedule, the calls that have returned gave the results
      they give one after the other, in the order in which they returned, each thread in its
      own order; and between changes the tokenizer is what these calls leave. *)
  Theorem C85_atomic (s : S) (programs : list (list call)) m : every honest programs -> reach prefer s programs m ->
    exists s', in_turn s (m_log m) s' /\
      (Forall (fun x => ~ changing x) (m_threads m) -> m_state m = s') /\
      length (m_threads m) = length programs /\
      forall t p x, nth_error programs t = Some p -> nth_error (m_threads m) t = Some x -> p = calls_of t (m_log m) ++ pending x.
  Proof.
    intros H Re. destruct (inv_reach prefer s programs m H Re) as [L C Rd W Ei G (s1 & I1 & I2 & I3)].
    exists s1. split; [assumption|]. split; [|split; [assumption|intros; eapply C; eassumption]].
    intros F. apply I2. destruct (m_writer m) eqn:M; [|reflexivity]. cbn in W. exfalso.
    rewrite (cnt_none writes (m_threads m)) in W; [discriminate|]. intros i x N. rewrite Forall_forall in F. specialize (F x (nth_error_In _ _ N)).
    destruct x; cbn in *; auto. destruct (c_write c); [exfalso; apply F; reflexivity|reflexivity].
  Qed.
  (** When all have finished, each thread has all its results. *)
  Theorem C85_all (s : S) (programs : list (list call)) m : every honest programs -> reach prefer s programs m -> finished m ->
    in_turn s (m_log m) (m_state m) /\ forall t p, nth_error programs t = Some p -> calls_of t (m_log m) = p.
  Proof.
    intros H Re F. destruct (C85_atomic s programs m H Re) as (s' & I1 & I2 & L & C). unfold finished in F. rewrite Forall_forall in F. split.
    - rewrite I2; [assumption|]. apply Forall_forall. intros x Hx. rewrite (F x Hx). intros [].
    - intros t p P. destruct (nth_error (m_threads m) t) as [x|] eqn:N.
      + rewrite (C t p x P N), (F x (nth_error_In _ _ N)). symmetry. apply app_nil_r.
      + apply nth_error_None in N. rewrite L in N. apply nth_error_None in N. congruence.
  Qed.

  (** What has returned stays returned: a call made after another has returned comes after it. *)
  Theorem C85_order (m m' : machine) : path prefer m m' -> exists later, m_log m' = m_log m ++ later.
  Proof.
    intros P. induction P as [m | m m' m'' St P (l & IH)]; [exists []; symmetry; apply app_nil_r|].
    assert (exists l', m_log m' = m_log m ++ l') as (l' & E); [|exists (l' ++ l); rewrite IH, E, app_assoc; reflexivity].
    assert (forall x : machine, m_log x = m_log m -> exists l', m_log x = m_log m ++ l') as K by (intros x ->; exists []; symmetry; apply app_nil_r).
    destruct St as [t m m' E | t m m' E].
    - unfold go in E. destruct (nth_error (m_threads m) t) as [[rest | c rest | c rest [r | k | s0 k | k | w k] | rest]|]; [..|discriminate].
      + destruct (has_gil m t); [destruct rest; injection E as <-; apply K; [|destruct (c_detach c)]; reflexivity|]. destruct (gil_free m && _); [|discriminate]. injection E as <-. apply K. reflexivity.
      + destruct (grant prefer m (c_write c)); [|discriminate]. injection E as <-. apply K. reflexivity.
      + injection E as <-. eexists. reflexivity.
      + injection E as <-. apply K. reflexivity.
      + injection E as <-. apply K. reflexivity.
      + destruct (c_detach c); [destruct (gil_free m); [|discriminate]; injection E as <-; apply K; reflexivity|].
        destruct (has_gil m t); [injection E as <-; apply K; reflexivity|]. destruct (gil_free m); [|discriminate]. injection E as <-. apply K. reflexivity.
      + destruct (grant prefer m w); [|discriminate]. injection E as <-. apply K. reflexivity.
      + destruct (gil_free m); [|discriminate]. injection E as <-. apply K. reflexivity.
    - unfold yield in E. destruct (has_gil m t); [|discriminate]. destruct (nth_error (m_threads m) t) as [[[|c rest] | | c rest [| | | |] | ]|]; try discriminate.
      + injection E as <-. apply K. reflexivity.
      + destruct (c_detach c); [discriminate|]. injection E as <-. apply K. reflexivity.
  Qed.

  (** ** No deadlock *)
  Definition acts (P : act -> Prop) (m : machine) : Prop := forall t c rest a, nth_error (m_threads m) t = Some (Body c rest a) -> P a.
  Definition closed (P : act -> Prop) : Prop :=
    (forall k s, P (Get k) -> P (k s)) /\ (forall s k, P (Put s k) -> P k) /\ (forall k, P (Py k) -> P k) /\ (forall w k, P (Again w k) -> P k).
  Lemma acts_step s0 programs P m m' : closed P -> every (fun c => P (c_body c)) programs -> inv s0 programs m -> acts P m -> step prefer m m' -> acts P m'.
  Proof.
    intros (K1 & K2 & K3 & K4) Hp I A St.
    assert (forall t x y g s r w l, nth_error (m_threads m) t = Some x -> (forall c rest a, y = Body c rest a -> P a) -> acts P (mkMachine s g r w (set_at (m_threads m) t y) l)) as K.
    { intros t x y g s r w l N Hy t' c rest a N'. cbn [m_threads] in N'. apply set_nth in N'. destruct N' as [(<- & Ey) | (D & N')]; [symmetry in Ey; eauto|eauto]. }
    assert (forall g, acts P (with_gil g m)) as Kg by (intros g t c rest a N; cbn in N; eauto).
    destruct St as [t m m' E | t m m' E].
    - unfold go in E. destruct (nth_error (m_threads m) t) as [[rest | c rest | c rest [r | k | s k | k | w k] | rest]|] eqn:N; [..|discriminate].
      + destruct (has_gil m t); [|destruct (gil_free m && _); [injection E as <-; apply Kg|discriminate]].
        destruct rest as [|c rest]; injection E as <-; [apply Kg|]. destruct (c_detach c); unfold put, with_gil; cbn [m_threads]; eapply K; try eassumption; discriminate.
      + destruct (grant prefer m (c_write c)); [|discriminate]. injection E as <-. eapply K; [exact N|]. intros c' rest' a [= <- <- <-].
        destruct (nth_error programs t) as [p|] eqn:Ep; [|apply nth_error_None in Ep; rewrite <- (i_len _ _ _ I) in Ep; apply nth_error_None in Ep; congruence].
        pose proof (i_calls _ _ _ I _ _ _ N Ep) as X. unfold every in Hp. rewrite Forall_forall in Hp. specialize (Hp _ (nth_error_In _ _ Ep)). rewrite X, Forall_app in Hp.
        destruct Hp as (_ & Hp). cbn [pending] in Hp. inversion Hp; assumption.
      + injection E as <-. eapply K; [exact N|]. destruct (c_detach c); discriminate.
      + injection E as <-. eapply K; [exact N|]. intros c' rest' a [= <- <- <-]. apply K1. eapply A; exact N.
      + injection E as <-. eapply K; [exact N|]. intros c' rest' a [= <- <- <-]. eapply K2, A; exact N.
      + assert (acts P (put m t (Body c rest k))) as J by (eapply K; [exact N|]; intros c' rest' a [= <- <- <-]; apply K3; eapply A; exact N).
        destruct (c_detach c); [destruct (gil_free m); [injection E as <-; exact J|discriminate]|]. destruct (has_gil m t); [injection E as <-; exact J|]. destruct (gil_free m); [|discriminate]. injection E as <-. apply Kg.
      + destruct (grant prefer m w); [|discriminate]. injection E as <-. eapply K; [exact N|]. intros c' rest' a [= <- <- <-]. eapply K4, A; exact N.
      + destruct (gil_free m); [|discriminate]. injection E as <-. unfold put, with_gil. cbn [m_threads]. eapply K; [exact N|discriminate].
    - unfold yield in E. destruct (has_gil m t); [|discriminate]. destruct (nth_error (m_threads m) t) as [[[|c rest] | | c rest [| | | |] | ]|]; try discriminate.
      + injection E as <-. apply Kg.
      + destruct (c_detach c); [discriminate|]. injection E as <-. apply Kg.
  Qed.
  Lemma acts_path s0 programs P m m' : every honest programs -> closed P -> every (fun c => P (c_body c)) programs -> inv s0 programs m -> acts P m -> path prefer m m' -> acts P m'.
  Proof.
    intros H K Hp I A Pa. induction Pa as [|m m' m'' St Pa IH]; [assumption|]. apply IH; [destruct St; [eapply inv_go|eapply inv_yield]; eassumption|].
    eapply acts_step; eassumption.
  Qed.
  Lemma acts_start s programs P : acts P (start s programs).
  Proof. intros t c rest a N. cbn in N. rewrite nth_error_map in N. destruct (nth_error programs t); discriminate. Qed.
  Lemma closed_python : closed no_python.
  Proof. repeat split; intros; inversion H; subst; auto. Qed.
  Lemma closed_again : closed not_again.
  Proof. repeat split; intros; inversion H; subst; auto. Qed.

  Definition weight (x : tstate) : nat :=
    match x with Idle rest => 5 * length rest + 1 | Want _ rest => 5 * length rest + 4 | Body _ rest _ => 5 * length rest + 3 | Back rest => 5 * length rest + 2 end.
  Definition total (m : machine) : nat := list_sum (map weight (m_threads m)).
  Lemma sum_set (l : list tstate) t x y : nth_error l t = Some y -> list_sum (map weight (set_at l t x)) + weight y = list_sum (map weight l) + weight x.
  Proof. revert t. induction l as [|z l IH]; intros [|t] N; cbn [nth_error set_at map list_sum fold_right] in *; try discriminate; [injection N as ->; unfold list_sum; lia|]. specialize (IH t N). unfold list_sum in *. lia. Qed.
  Lemma set_set (l : list tstate) t x y : set_at (set_at l t x) t y = set_at l t y.
  Proof. revert t. induction l as [|z l IH]; intros [|t]; cbn [set_at]; auto. f_equal. auto. Qed.
  Lemma path_app (m m' m'' : machine) : path prefer m m' -> path prefer m' m'' -> path prefer m m''.
  Proof. intros P Q. induction P; [assumption|]. econstructor; eauto. Qed.
  Lemma path_go t (m m' : machine) : go prefer t m = Some m' -> path prefer m m'.
  Proof. intros E. econstructor; [eapply step_go; exact E|constructor]. Qed.

  Lemma body_runs c t rest a : forall m : machine, nth_error (m_threads m) t = Some (Body c rest a) ->
    no_python a \/ not_again a /\ (m_gil m = None \/ m_gil m = Some t /\ c_detach c = false) ->
    exists m', path prefer m m' /\ total m' < total m.
  Proof.
    assert (forall m m' x, nth_error (m_threads m) t = Some x -> forall y : tstate, m_threads m' = set_at (m_threads m) t y -> weight y < weight x -> total m' < total m) as Lt.
    { intros m m' x N y E W. unfold total. rewrite E. pose proof (sum_set (m_threads m) t y x N). lia. }
    assert (forall m x k, nth_error (m_threads m) t = Some (Body c rest x) -> forall m1 : machine, m_threads m1 = set_at (m_threads m) t (Body c rest k) -> nth_error (m_threads m1) t = Some (Body c rest k) /\ total m1 = total m) as Same.
    { intros m x k N m1 E. rewrite E. split; [apply (set_same _ _ _ _ N)|]. unfold total. rewrite E. pose proof (sum_set (m_threads m) t (Body c rest k) _ N) as X. cbn [weight] in X. lia. }
    induction a as [r | k IH | s k IH | k IH | w k IH]; intros m N C.
    - eexists. split; [apply (path_go t); unfold go; rewrite N; reflexivity|]. eapply Lt; [exact N|reflexivity|]. destruct (c_detach c); cbn [weight]; lia.
    - set (m1 := put m t (Body c rest (k (m_state m)))). destruct (Same m _ (k (m_state m)) N m1 eq_refl) as (N1 & T1).
      destruct (IH (m_state m) m1 N1) as (m' & P & T); [destruct C as [C | (C & Hg)]; [left; inversion C; auto | right; split; [inversion C; auto|exact Hg]]|].
      exists m'. split; [|lia]. eapply path_app; [|exact P]. apply (path_go t). unfold go. rewrite N. reflexivity.
    - set (m1 := mkMachine s (m_gil m) (m_readers m) (m_writer m) (set_at (m_threads m) t (Body c rest k)) (m_log m)). destruct (Same m _ k N m1 eq_refl) as (N1 & T1).
      destruct (IH m1 N1) as (m' & P & T); [destruct C as [C | (C & Hg)]; [left; inversion C; auto | right; split; [inversion C; auto|exact Hg]]|].
      exists m'. split; [|lia]. eapply path_app; [|exact P]. apply (path_go t). unfold go. rewrite N. reflexivity.
    - destruct C as [C | (C & Hg)]; [inversion C|]. inversion C as [| | |? C']; subst.
      assert (forall m0 : machine, nth_error (m_threads m0) t = Some (Body c rest (Py k)) -> m_gil m0 = Some t -> c_detach c = false -> exists m', path prefer m0 m' /\ total m' < total m0) as Held.
      { intros m0 N0 G0 D. set (m1 := put m0 t (Body c rest k)). destruct (Same m0 _ k N0 m1 eq_refl) as (N1 & T1).
        destruct (IH m1 N1) as (m' & P & T); [right; split; [assumption|right; auto]|].
        exists m'. split; [|lia]. eapply path_app; [|exact P]. apply (path_go t). unfold go. rewrite N0, D. apply gil_at in G0. rewrite G0. reflexivity. }
      destruct Hg as [Hg | (Hg & D)]; [|exact (Held m N Hg D)]. destruct (c_detach c) eqn:D.
      + set (m1 := put m t (Body c rest k)). destruct (Same m _ k N m1 eq_refl) as (N1 & T1).
        destruct (IH m1 N1) as (m' & P & T); [right; auto|].
        exists m'. split; [|lia]. eapply path_app; [|exact P]. apply (path_go t). unfold go. rewrite N, D. apply gil_no in Hg. rewrite Hg. reflexivity.
      + destruct (Held (with_gil (Some t) m) N eq_refl eq_refl) as (m' & P & T). exists m'. split; [|exact T]. eapply path_app; [|exact P].
        apply (path_go t). unfold go. rewrite N, D. unfold has_gil. rewrite Hg. apply gil_no in Hg. rewrite Hg. reflexivity.
    - exfalso. destruct C as [C | (C & _)]; inversion C.
  Qed.

  (** From a state without bodies, or without writers, someone who waits for the lock gets it. *)
  Lemma want_runs s0 programs (m : machine) t c rest : inv s0 programs m -> nth_error (m_threads m) t = Some (Want c rest) ->
    (forall i x, nth_error (m_threads m) i = Some x -> (forall c rest a, x <> Body c rest a)) \/ every (fun c => c_write c = false) programs ->
    exists m', path prefer m m' /\ total m' < total m.
  Proof.
    intros I N H.
    assert (forall i c rest, nth_error (m_threads m) i = Some (Want c rest) -> grant prefer m (c_write c) = true -> exists m', path prefer m m' /\ total m' < total m) as K.
    { intros i c' rest' N' Gr. eexists. split; [apply (path_go i); unfold go; rewrite N', Gr; reflexivity|]. unfold total. cbn [m_threads].
      pose proof (sum_set (m_threads m) i (Body c' rest' (c_body c')) _ N') as X. cbn [weight] in X. lia. }
    destruct H as [H | H].
    - assert (m_readers m = 0) as Rd. { rewrite (i_readers _ _ _ I). apply cnt_none. intros i x N'. destruct x; try reflexivity. exfalso. eapply H; [exact N'|reflexivity]. }
      assert (m_writer m = false) as W. { pose proof (i_writer _ _ _ I) as W. rewrite cnt_none in W; [destruct (m_writer m); [discriminate|reflexivity]|]. intros i x N'. destruct x; try reflexivity. exfalso. eapply H; [exact N'|reflexivity]. }
      destruct (find_in wants_write (m_threads m)) as [(i & x & N' & F) | F].
      + destruct x as [|c' rest'| |]; try discriminate F. apply (K i c' rest' N'). cbn in F. unfold grant. rewrite F, Rd, W. reflexivity.
      + apply (K t c rest N). specialize (F t _ N) as F'. cbn in F'. rewrite F'. unfold grant. rewrite W. cbn [negb andb].
        destruct (existsb wants_write (m_threads m)) eqn:Ex; [|rewrite andb_false_r; reflexivity]. apply existsb_exists in Ex. destruct Ex as (x & Hx & Fx). apply In_nth_error in Hx. destruct Hx as (i & Ni). rewrite (F i x Ni) in Fx. discriminate.
    - assert (forall i x c', nth_error (m_threads m) i = Some x -> In c' (pending x) -> c_write c' = false) as Hall.
      { intros i x c' Ni Hc. destruct (nth_error programs i) as [p|] eqn:Ep; [|apply nth_error_None in Ep; rewrite <- (i_len _ _ _ I) in Ep; apply nth_error_None in Ep; congruence].
        pose proof (i_calls _ _ _ I _ _ _ Ni Ep) as X. unfold every in H. rewrite Forall_forall in H. specialize (H _ (nth_error_In _ _ Ep)). rewrite Forall_forall in H. apply H. rewrite X. apply in_or_app. auto. }
      apply (K t c rest N). rewrite (Hall t _ c N) by (left; reflexivity). unfold grant.
      assert (m_writer m = false) as W. { pose proof (i_writer _ _ _ I) as W. rewrite cnt_none in W; [destruct (m_writer m); [discriminate|reflexivity]|]. intros i x N'. destruct x; try reflexivity. cbn. apply (Hall i _ c0 N'). left. reflexivity. }
      rewrite W. destruct (existsb wants_write (m_threads m)) eqn:Ex; [|rewrite andb_false_r; reflexivity]. apply existsb_exists in Ex. destruct Ex as (x & Hx & Fx). apply In_nth_error in Hx. destruct Hx as (i & Ni).
      destruct x as [|c' rest'| |]; try discriminate Fx. cbn in Fx. rewrite (Hall i _ c' Ni) in Fx by (left; reflexivity). discriminate.
  Qed.

  Definition is_body (x : tstate) : bool := match x with Body _ _ _ => true | _ => false end.
  Definition is_want (x : tstate) : bool := match x with Want _ _ => true | _ => false end.
  Definition is_done (x : tstate) : bool := match x with Idle [] => true | _ => false end.

  Lemma free_runs s0 programs (m : machine) : inv s0 programs m -> acts not_again m -> m_gil m = None -> ~ finished m -> exists m', path prefer m m' /\ total m' < total m.
  Proof.
    intros I A G Nf. destruct (find_in is_body (m_threads m)) as [(t & x & N & F) | Fb].
    { destruct x as [| |c rest a|]; try discriminate F. apply (body_runs c t rest a m N). right. split; [exact (A _ _ _ _ N)|auto]. }
    destruct (find_in is_want (m_threads m)) as [(t & x & N & F) | Fw].
    { destruct x as [|c rest| |]; try discriminate F. eapply want_runs; [exact I|exact N|]. left. intros i x Ni c' rest' a' ->. specialize (Fb i _ Ni). discriminate. }
    destruct (find_in (fun x => negb (is_done x)) (m_threads m)) as [(t & x & N & F) | Fd].
    2: { exfalso. apply Nf. apply Forall_forall. intros x Hx. apply In_nth_error in Hx. destruct Hx as (i & Ni). specialize (Fd i x Ni). destruct x as [[|]| | |]; try discriminate Fd. reflexivity. }
    pose proof (proj2 (gil_no m) G) as Gf.
    destruct x as [[|c rest] | c rest | c rest a | rest]; [discriminate F| | specialize (Fw t _ N); discriminate | specialize (Fb t _ N); discriminate |].
    - set (m1 := with_gil (Some t) m). assert (go prefer t m = Some m1) as E1 by (unfold go; rewrite N; unfold has_gil; rewrite G, Gf; reflexivity).
      eexists. split; [econstructor; [eapply step_go; exact E1|]; apply (path_go t); unfold go, m1; cbn [m_threads with_gil]; rewrite N; unfold has_gil; cbn [m_gil with_gil]; rewrite Nat.eqb_refl; reflexivity|].
      pose proof (sum_set (m_threads m) t (Want c rest) _ N) as X. cbn [weight length] in X. unfold total. destruct (c_detach c); cbn [put with_gil m_threads]; lia.
    - eexists. split; [apply (path_go t); unfold go; rewrite N, Gf; reflexivity|]. unfold total. cbn [put with_gil m_threads]. pose proof (sum_set (m_threads m) t (Idle rest) _ N) as X. cbn [weight] in X. lia.
  Qed.

  Lemma python_again (a : act) : no_python a -> not_again a.
  Proof. intros H. induction H; constructor; auto. Qed.

  Lemma progress s0 programs (m : machine) : every honest programs -> peaceful programs -> inv s0 programs m -> acts not_again m ->
    (every (fun c => no_python (c_body c)) programs -> acts no_python m) -> ~ finished m -> exists m', path prefer m m' /\ total m' < total m.
  Proof.
    intros H Pe I A Ap Nf. destruct (m_gil m) as [t|] eqn:G; [|eapply free_runs; eassumption].
    destruct (i_gil _ _ _ I t G) as (x & N & Hx). pose proof (proj2 (gil_at m t) G) as Hg.
    assert (forall i c, nth_error (m_threads m) i = Some x -> In c (pending x) -> forall P, every P programs -> P c) as Hall.
    { intros i c' Ni Hc P Hp. destruct (nth_error programs i) as [p|] eqn:Ep; [|apply nth_error_None in Ep; rewrite <- (i_len _ _ _ I) in Ep; apply nth_error_None in Ep; congruence].
      pose proof (i_calls _ _ _ I _ _ _ Ni Ep) as X. unfold every in Hp. rewrite Forall_forall in Hp. specialize (Hp _ (nth_error_In _ _ Ep)). rewrite Forall_forall in Hp. apply Hp. rewrite X. apply in_or_app. auto. }
    destruct x as [[|c rest] | c rest | c rest a | rest]; [| | | |destruct Hx].
    - assert (go prefer t m = Some (with_gil None m)) as E by (unfold go; rewrite N, Hg; reflexivity).
      destruct (free_runs s0 programs (with_gil None m)) as (m' & P & T); [eapply inv_go; eassumption|exact A|reflexivity|exact Nf|].
      exists m'. split; [econstructor; [eapply step_go; exact E|exact P]|exact T].
    - eexists. split; [apply (path_go t); unfold go; rewrite N, Hg; reflexivity|]. 
      pose proof (sum_set (m_threads m) t (Want c rest) _ N) as X. cbn [weight length] in X. unfold total. destruct (c_detach c); cbn [put with_gil m_threads]; lia.
    - destruct Pe as [Pe | [Pe | Pe]].
      + destruct (find_in is_body (m_threads m)) as [(i & y & Ni & F) | Fb].
        * destruct y as [| |c' rest' a|]; try discriminate F. apply (body_runs c' i rest' a m Ni). left. exact (Ap Pe _ _ _ _ Ni).
        * eapply want_runs; [exact I|exact N|]. left. intros i y Ni c' rest' a' ->. specialize (Fb i _ Ni). discriminate.
      + eapply want_runs; [exact I|exact N|]. right. unfold every in *. rewrite Forall_forall in *. intros p Hp. specialize (Pe p Hp). rewrite Forall_forall in *. intros c' Hc. apply Pe. assumption.
      + exfalso. destruct (Hall t c N (or_introl eq_refl) _ Pe) as (D & _). congruence.
    - apply (body_runs c t rest a m N). right. split; [exact (A _ _ _ _ N)|auto].
  Qed.

  (** However far the threads have come, they can all finish, if no Python code runs during
      calls, or all calls only read, or all release the GIL. *)
  Theorem C85_progress (s : S) (programs : list (list call)) m : every honest programs -> peaceful programs -> reach prefer s programs m ->
    exists m', path prefer m m' /\ finished m'.
  Proof.
    intros H Pe Re.
    assert (every (fun c => not_again (c_body c)) programs) as Hn.
    { unfold peaceful, every in *. destruct Pe as [Pe | [Pe | Pe]]; rewrite Forall_forall in *; intros p Hp; specialize (Pe p Hp); rewrite Forall_forall in *; intros c Hc; [apply python_again|..]; apply Pe; assumption. }
    remember (total m) as n eqn:En. revert m Re En. induction n as [n IH] using lt_wf_ind. intros m Re En.
    destruct (find_in (fun x => negb (is_done x)) (m_threads m)) as [(t & x & N & F) | Fd].
    2: { exists m. split; [constructor|]. apply Forall_forall. intros x Hx. apply In_nth_error in Hx. destruct Hx as (i & Ni). specialize (Fd i x Ni). destruct x as [[|]| | |]; try discriminate Fd. reflexivity. }
    pose proof (inv_reach prefer s programs m H Re) as I.
    destruct (progress s programs m H Pe I) as (m1 & P1 & T1).
    - eapply acts_path; [exact H|exact closed_again|exact Hn|apply inv_start|apply acts_start|exact Re].
    - intros Hp. eapply acts_path; [exact H|exact closed_python|exact Hp|apply inv_start|apply acts_start|exact Re].
    - intros Hf. unfold finished in Hf. rewrite Forall_forall in Hf. rewrite (Hf x (nth_error_In _ _ N)) in F. discriminate.
    - destruct (IH (total m1)) with (m := m1) as (m2 & P2 & F2); [lia|eapply path_app; eassumption|reflexivity|]. exists m2. split; [eapply path_app; eassumption|assumption].
  Qed.
End locks.

(** Three threads: one adds a token (keeping the GIL), two look twice at the tokenizer, one
    of them in a batch (without the GIL). *)
Definition ex_add : call nat nat := mkCall false true (Get (fun s => Put (s + 1) (Ret s))).
Definition ex_look : call nat nat := mkCall false false (Get (fun s => Get (fun s' => Ret (s + s')))).
Definition ex_batch : call nat nat := mkCall true false (Get (fun s => Get (fun s' => Ret (s + s')))).
Definition ex_programs : list (list (call nat nat)) := [[ex_add; ex_look]; [ex_batch]; [ex_look; ex_add]].
Lemma ex_honest : every honest ex_programs.
Proof. unfold every, ex_programs. repeat apply Forall_cons; try apply Forall_nil; intros E; try discriminate E; cbn; repeat (constructor; intros). Qed.
Fixpoint runs {S R} (prefer : bool) (l : list (bool * nat)) (m : machine S R) : option (machine S R) :=
  match l with
  | [] => Some m
  | (b, t) :: l' => match (if b then go prefer t m else yield t m) with Some m' => runs prefer l' m' | None => None end
  end.
Lemma runs_path {S R} prefer l : forall m m' : machine S R, runs prefer l m = Some m' -> path prefer m m'.
Proof.
  induction l as [|[b t] l IH]; intros m m' E; cbn [runs] in E; [injection E as <-; constructor|].
  destruct b; [destruct (go prefer t m) as [m1|] eqn:E1 | destruct (yield t m) as [m1|] eqn:E1]; try discriminate; (econstructor; [|exact (IH _ _ E)]); [eapply step_go|eapply step_yield]; exact E1.
Qed.
Example C85_ex : every honest ex_programs /\ peaceful ex_programs /\
  exists m, reach true 7 ex_programs m /\ map (fun e => (fst (fst e), snd e)) (m_log m) = [(1, 14); (0, 7)] /\ m_state m = 8 /\ ~ finished m.
Proof.
  split; [exact ex_honest|]. split.
  - left. unfold every, ex_programs. repeat apply Forall_cons; try apply Forall_nil; cbn; repeat (constructor; intros).
  - destruct (runs true [(true, 1); (true, 1); (true, 1); (true, 0); (true, 0); (true, 1); (true, 1); (true, 1); (true, 0); (true, 0); (true, 0); (true, 0)] (start 7 ex_programs)) as [m|] eqn:E; [|vm_compute in E; discriminate].
    exists m. split; [eapply runs_path; exact E|]. vm_compute in E. injection E as <-. split; [reflexivity|]. split; [reflexivity|]. intros F. inversion F. discriminate.
Qed.

Ltac no_step := intros m2 St; inversion St as [t m0 m1 E | t m0 m1 E]; subst;
  [destruct t as [|[|t]]; cbn in E; try discriminate E; try (destruct t; cbn in E; discriminate E)
  |unfold yield in E; cbn in E; try discriminate E; destruct t as [|[|t]]; cbn in E; discriminate E].

(** [train_from_iterator] waits for the GIL, which it needs to read on, while another
    thread holds it and waits for the tokenizer: both wait for ever. *)
Definition ex_train : call nat nat := mkCall true true (Py (Put 9 (Ret 0))).
Theorem C85_train_refuted : exists prefer (programs : list (list (call nat nat))) m, programs = [[ex_train]; [ex_look]] /\ every honest programs /\ reach prefer 7 programs m /\ stuck prefer m.
Proof.
  exists true, [[ex_train]; [ex_look]].
  destruct (runs true [(true, 0); (true, 0); (true, 0); (true, 1); (true, 1)] (start 7 [[ex_train]; [ex_look]])) as [m|] eqn:E; [|vm_compute in E; discriminate].
  exists m. split; [reflexivity|]. split.
  - unfold every. repeat apply Forall_cons; try apply Forall_nil; intros Ew; try discriminate Ew; cbn; repeat (constructor; intros).
  - split; [eapply runs_path; exact E|]. vm_compute in E. injection E as <-. split; [intros F; inversion F; discriminate|]. no_step.
Qed.
(** So do [encode] with a component written in Python, and [add_tokens] in another thread. *)
Definition ex_custom : call nat nat := mkCall false false (Py (Get (fun s => Ret s))).
Theorem C85_component_refuted : exists prefer (programs : list (list (call nat nat))) m, programs = [[ex_custom]; [ex_add]] /\ every honest programs /\ reach prefer 7 programs m /\ stuck prefer m.
Proof.
  exists true, [[ex_custom]; [ex_add]].
  destruct (runs true [(true, 0); (true, 0); (true, 0); (false, 0); (true, 1); (true, 1)] (start 7 [[ex_custom]; [ex_add]])) as [m|] eqn:E; [|vm_compute in E; discriminate].
  exists m. split; [reflexivity|]. split.
  - unfold every. repeat apply Forall_cons; try apply Forall_nil; intros Ew; try discriminate Ew; cbn; repeat (constructor; intros).
  - split; [eapply runs_path; exact E|]. vm_compute in E. injection E as <-. split; [intros F; inversion F; discriminate|]. no_step.
Qed.
(** And a single thread whose iterator looks something up in the tokenizer it trains. *)
Definition ex_self : call nat nat := mkCall true true (Py (Again false (Put 9 (Ret 0)))).
Theorem C85_self_refuted : exists prefer (programs : list (list (call nat nat))) m, programs = [[ex_self]] /\ every honest programs /\ reach prefer 7 programs m /\ stuck prefer m.
Proof.
  exists true, [[ex_self]].
  destruct (runs true [(true, 0); (true, 0); (true, 0); (true, 0)] (start 7 [[ex_self]])) as [m|] eqn:E; [|vm_compute in E; discriminate].
  exists m. split; [reflexivity|]. split.
  - unfold every. repeat apply Forall_cons; try apply Forall_nil; intros Ew; try discriminate Ew; cbn; repeat (constructor; intros).
  - split; [eapply runs_path; exact E|]. vm_compute in E. injection E as <-. split; [intros F; inversion F; discriminate|]. no_step.
Qed.
