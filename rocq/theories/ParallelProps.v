(** C78: the settings of parallelism. *)
From Coq Require Import String Ascii.
From Verif Require Import Base StrBytes ParallelModel ParallelSpec.

(** ** The environment *)
Lemma lower_same a b : ~ (65 <= b <= 90)%N -> (ascii_lower a = b <-> same_letter a b).
Proof.
  intros H. unfold ascii_lower, same_letter. destruct (N.leb 65 a && N.leb a 90)%bool eqn:E; split; intros X; lia.
Qed.
Lemma lower_word s w : Forall (fun c => ~ (65 <= c <= 90)%N) w -> (map ascii_lower s = w <-> Forall2 same_letter s w).
Proof.
  revert w. induction s as [|a s IH]; intros [|b w] F; cbn [map]; split; intros H; try discriminate; try constructor; try (inversion H; fail).
  - injection H as H1 H2. apply Forall_cons_iff in F. apply lower_same; [apply F|exact H1].
  - injection H as H1 H2. apply Forall_cons_iff in F. apply IH; [apply F|exact H2].
  - apply Forall_cons_iff in F. destruct F as [F1 F2]. inversion H; subst. f_equal; [apply lower_same; assumption|apply IH; assumption].
Qed.
Lemma off_lower w : In w off_words -> Forall (fun c => ~ (65 <= c <= 90)%N) w.
Proof. intros H. cbn in H. repeat destruct H as [<-|H]; try destruct H; repeat constructor; lia. Qed.

Lemma words_same w : In w off_words <-> exists u, In u documented /\ map N_of_ascii (list_ascii_of_string u) = w.
Proof.
  split.
  - intros H. cbn in H. repeat destruct H as [<-|H]; try destruct H; [exists ""%string|exists "off"%string|exists "false"%string|exists "f"%string|exists "no"%string|exists "n"%string|exists "0"%string]; (split; [cbn; auto 8|reflexivity]).
  - intros (u & H & <-). cbn in H. repeat destruct H as [<-|H]; try destruct H; vm_compute; auto 8.
Qed.

(** The environment switches parallelism off exactly with one of the documented
    words, in capitals or not; an absent variable does not. *)
Theorem C78_env : forall v, env_parallelism v = false <-> exists s, v = EText s /\ says_off s.
Proof.
  intros [| |s]; cbn [env_parallelism]; [split; [discriminate|intros (s & E & _); discriminate]|split; [discriminate|intros (s & E & _); discriminate]|].
  rewrite negb_false_iff, existsb_exists. split.
  - intros (w & I & E). exists s. split; [reflexivity|]. apply str_eqb_eq in E. apply lower_word in E; [|apply off_lower; exact I]. apply words_same in I. destruct I as (u & Iu & <-). exists u. auto.
  - intros (s' & E & u & I & F). injection E as <-. exists (map N_of_ascii (list_ascii_of_string u)). assert (Iw : In (map N_of_ascii (list_ascii_of_string u)) off_words) by (apply words_same; eauto).
    split; [exact Iw|]. apply str_eqb_eq. apply lower_word; [apply off_lower; exact Iw|exact F].
Qed.
Example C78_env_example : says_off [70; 97; 76; 115; 101]%N /\ env_parallelism (EText [70; 97; 76; 115; 101]%N) = false /\ env_parallelism (EText [32; 48]%N) = true.
Proof.
  split; [|split; reflexivity]. exists "false"%string. split; [cbn; auto|]. repeat constructor; unfold same_letter; lia.
Qed.

(** ** One thread *)
Definition flag_of (setting : option bool) : N := match setting with None => 0 | Some false => 1 | Some true => 2 end%N.
Lemma override_of s : override (flag_of s) = Ok s.
Proof. destruct s as [[]|]; reflexivity. Qed.

Lemma run_app p ts s1 s2 p1 ts1 e1 : run p ts s1 = Ok (p1, ts1, e1) ->
  run p ts (s1 ++ s2) = let! (p2, ts2, e2) := run p1 ts1 s2 in Ok (p2, ts2, e1 ++ e2).
Proof.
  revert p ts p1 ts1 e1. induction s1 as [|i s1 IH]; intros p ts p1 ts1 e1 H; cbn [run app] in *.
  - injection H as <- <- <-. destruct (run p ts s2) as [[[? ?] ?]| |]; reflexivity.
  - destruct (nth_error ts i) as [t|]; [|apply IH; exact H]. destruct (step p t) as [[[p' t'] ev]| |]; try discriminate. cbn [bind] in *.
    destruct (run p' (set_nth i t' ts) s1) as [[[p2 ts2] ev2]| |] eqn:E; try discriminate. cbn [bind] in H. injection H as <- <- <-.
    rewrite (IH _ _ _ _ _ E). destruct (run p2 ts2 s2) as [[[? ?] ?]| |]; cbn [bind]; [rewrite app_assoc|..]; reflexivity.
Qed.
Lemma idle p n : run p [mkThread [] Outside] (repeat 0 n) = Ok (p, [mkThread [] Outside], []).
Proof. induction n as [|n IH]; [reflexivity|]. cbn [repeat run nth_error step th_phase th_todo bind set_nth]. rewrite IH. reflexivity. Qed.

Lemma alone l : forall p setting, p_flag p = flag_of setting -> exists m p', m <= 4 * length l /\
  run p [mkThread l Outside] (repeat 0 m) = Ok (p', [mkThread [] Outside], choices setting (p_env p) l) /\
  p_flag p' = flag_of (fst (settled setting (p_env p) l)) /\ p_env p' = snd (settled setting (p_env p) l).
Proof.
  induction l as [|c l IH]; intros p setting F; [exists 0, p; auto|].
  assert (ST : forall k, k <= 4 -> forall p1 s1 e1, run p [mkThread (c :: l) Outside] (repeat 0 k) = Ok (p1, [mkThread l Outside], e1) -> p_flag p1 = flag_of s1 ->
    choices setting (p_env p) (c :: l) = e1 ++ choices s1 (p_env p1) l -> settled setting (p_env p) (c :: l) = settled s1 (p_env p1) l ->
    exists m p', m <= 4 * length (c :: l) /\ run p [mkThread (c :: l) Outside] (repeat 0 m) = Ok (p', [mkThread [] Outside], choices setting (p_env p) (c :: l)) /\
      p_flag p' = flag_of (fst (settled setting (p_env p) (c :: l))) /\ p_env p' = snd (settled setting (p_env p) (c :: l))).
  { intros k Hk p1 s1 e1 R F1 EC ES. destruct (IH p1 s1 F1) as (m & p' & Hm & R' & F' & E'). exists (k + m), p'. split; [cbn [length]; lia|]. rewrite repeat_app, (run_app _ _ _ _ _ _ _ R), R'. cbn [bind].
    rewrite EC, ES. auto. }
  destruct p as [fl us v0]. cbn [p_flag p_env] in *. subst fl.
  destruct c as [b|v|k [|]].
  - apply (ST 1 ltac:(lia) (set_parallelism b (mkProcess (flag_of setting) us v0)) (Some b) []); reflexivity.
  - apply (ST 1 ltac:(lia) (mkProcess (flag_of setting) us v) setting []); reflexivity.
  - destruct setting as [[]|].
    + destruct k; [apply (ST 3 ltac:(lia) (mkProcess 2 true v0) (Some true) [Started IVec true])|apply (ST 3 ltac:(lia) (mkProcess 2 true v0) (Some true) [Started IBridge true])|apply (ST 3 ltac:(lia) (mkProcess 2 us v0) (Some true) [Started IChunks true])]; reflexivity.
    + apply (ST 3 ltac:(lia) (mkProcess 1 us v0) (Some false) [Started k false]); reflexivity.
    + assert (R1 : run (mkProcess 0 us v0) [mkThread (Iterate k true :: l) Outside] (repeat 0 2) = Ok (mkProcess 0 us v0, [mkThread l (Chosen k (env_parallelism v0))], [])) by reflexivity.
      assert (R : forall q e, run (mkProcess 0 us v0) [mkThread l (Chosen k (env_parallelism v0))] (repeat 0 2) = Ok (q, [mkThread l Outside], e) -> run (mkProcess 0 us v0) [mkThread (Iterate k true :: l) Outside] (repeat 0 4) = Ok (q, [mkThread l Outside], e)).
      { intros q e R2. change 4 with (2 + 2). rewrite repeat_app, (run_app _ _ _ _ _ _ _ R1), R2. reflexivity. }
      destruct (env_parallelism v0) eqn:EV.
      * destruct k; [apply (ST 4 ltac:(lia) (mkProcess 0 true v0) None [Started IVec true])|apply (ST 4 ltac:(lia) (mkProcess 0 true v0) None [Started IBridge true])|apply (ST 4 ltac:(lia) (mkProcess 0 us v0) None [Started IChunks true])]; try reflexivity; try (apply R; reflexivity); cbn [choices andb]; rewrite EV; reflexivity.
      * apply (ST 4 ltac:(lia) (mkProcess 0 us v0) None [Started k false]); try reflexivity; try (apply R; reflexivity); cbn [choices andb]; rewrite EV; reflexivity.
  - apply (ST 2 ltac:(lia) (mkProcess (flag_of setting) us v0) setting [Started k false]); reflexivity.
Qed.

(** One thread on its own: an iterator is parallel exactly if its condition holds
    and the last [set_parallelism], or the environment if there was none, says so. *)
Theorem C78_alone : forall v l n, 4 * length l <= n -> exists p, run (fresh v) (starts [l]) (repeat 0 n) = Ok (p, starts [[]], choices None v l) /\
  get_parallelism p = Ok (match settled None v l with (Some b, _) => b | (None, v') => env_parallelism v' end) /\
  configured p = Ok (match settled None v l with (Some _, _) => true | (None, EText _) => true | (None, _) => false end).
Proof.
  intros v l n Hn. destruct (alone l (fresh v) None eq_refl) as (m & p & Hm & R & F & E). exists p. split.
  - replace n with (m + (n - m)) by lia. cbn [starts map]. rewrite repeat_app, (run_app _ _ _ _ _ _ _ R), idle. cbn [bind]. rewrite app_nil_r. reflexivity.
  - cbn [fresh p_env] in F, E. destruct (settled None v l) as [st v']. cbn [fst snd] in F, E. unfold get_parallelism, configured. rewrite F, E, override_of. cbn [bind]. destruct st; [split; [reflexivity|destruct v'; reflexivity]|split; [reflexivity|destruct v'; reflexivity]].
Qed.
Example C78_alone_example : choices None EAbsent [Iterate IVec true; SetTo false; Iterate IBridge true; EnvTo (EText [48%N]); SetTo true; Iterate IChunks true; Iterate IVec false] =
  [Started IVec true; Started IBridge false; Started IChunks true; Started IVec false].
Proof. reflexivity. Qed.

(** ** Several threads *)
Lemma run_flag p ts s : (p_flag p <= 2)%N -> exists p' ts' ev, run p ts s = Ok (p', ts', ev) /\ (p_flag p' <= 2)%N.
Proof.
  revert p ts. induction s as [|i s IH]; intros p ts H; [exists p, ts, []; auto|]. cbn [run]. destruct (nth_error ts i) as [[todo ph]|]; [|apply IH; exact H].
  assert (X : exists p1 t1 e1, step p (mkThread todo ph) = Ok (p1, t1, e1) /\ (p_flag p1 <= 2)%N).
  { unfold step. cbn [th_phase th_todo]. destruct ph as [|k|k []|k par]; [|do 3 eexists; split; [reflexivity|exact H]|destruct k; do 3 eexists; (split; [reflexivity|exact H])|do 3 eexists; split; [reflexivity|exact H]|do 3 eexists; split; [reflexivity|exact H]].
    destruct todo as [|[b|v|k []] rest]; try (do 3 eexists; split; [reflexivity|exact H]).
    - do 3 eexists. split; [reflexivity|]. cbn [set_parallelism p_flag]. destruct b; lia.
    - assert (O : exists o, override (p_flag p) = Ok o). { destruct (p_flag p) as [|[[]|[]|]]; try lia; eexists; reflexivity. } destruct O as (o & ->). do 3 eexists. split; [reflexivity|exact H]. }
  destruct X as (p1 & t1 & e1 & -> & H1). cbn [bind]. destruct (IH p1 (set_nth i t1 ts) H1) as (p2 & ts2 & e2 & -> & H2). do 3 eexists. split; [reflexivity|exact H2].
Qed.

(** The unreachable branch is not reached, in any schedule. *)
Theorem C78_no_panic : forall v programs schedule, exists p ts ev, run (fresh v) (starts programs) schedule = Ok (p, ts, ev) /\ (exists b, get_parallelism p = Ok b) /\ exists c, child_after_fork p = Ok c.
Proof.
  intros v programs schedule. destruct (run_flag (fresh v) (starts programs) schedule) as (p & ts & ev & R & H); [cbn; lia|]. exists p, ts, ev. split; [exact R|].
  assert (O : exists o, override (p_flag p) = Ok o). { destruct (p_flag p) as [|[[]|[]|]]; try lia; eexists; reflexivity. } destruct O as (o & O).
  split; [unfold get_parallelism; rewrite O; eexists; reflexivity|]. unfold child_after_fork, configured. destruct (p_used p); [|eauto]. rewrite O. destruct (p_env p); eexists; reflexivity.
Qed.

Definition marks (t : thread) : Prop := exists k, th_phase t = Ready k true /\ k <> IChunks.

Lemma set_nth_in {A} i (x y : A) l : In y (set_nth i x l) -> y = x \/ In y l.
Proof. revert i. induction l as [|a l IH]; intros [|i]; cbn [set_nth]; intros H; auto; destruct H as [<-|H]; cbn; auto. destruct (IH i H); auto. Qed.
Lemma set_nth_self {A} i (x t : A) l : nth_error l i = Some t -> In x (set_nth i x l).
Proof. revert i. induction l as [|a l IH]; intros [|i] H; cbn [set_nth nth_error] in *; try discriminate; [left; reflexivity|right; eauto]. Qed.
Lemma set_nth_other {A} i (x t y : A) l : nth_error l i = Some t -> In y l -> y = t \/ In y (set_nth i x l).
Proof.
  revert i. induction l as [|a l IH]; intros [|i] H Hy; cbn [set_nth nth_error] in *; try discriminate.
  - injection H as ->. destruct Hy as [<-|Hy]; cbn; auto.
  - destruct Hy as [<-|Hy]; [right; left; reflexivity|]. destruct (IH i H Hy); cbn; auto.
Qed.

Lemma step_used p t p' t' ev : step p t = Ok (p', t', ev) -> (marks t -> p_used p = true) ->
  (p_used p = true -> p_used p' = true) /\ (marks t' -> p_used p' = true) /\ (forall k, k <> IChunks -> In (Started k true) ev -> p_used p' = true) /\
  (p_used p' = true -> p_used p = true \/ marks t') /\ (marks t -> marks t' \/ exists k, k <> IChunks /\ In (Started k true) ev).
Proof.
  destruct t as [todo ph]. unfold step, marks. cbn [th_phase th_todo]. intros H M.
  assert (Q : forall k b, Ready k b = Ready k b) by reflexivity.
  destruct ph as [|k|k []|k par].
  - destruct todo as [|[b|v|k []] rest].
    all: try (injection H as <- <- <-; cbn [th_phase p_used set_parallelism]; split; [auto|]; split; [intros (k' & X & _); discriminate|]; split; [intros k' _ []|]; split; [auto|intros (k' & X & _); discriminate]).
    destruct (override (p_flag p)) as [o| |]; try discriminate. cbn [bind] in H. injection H as <- <- <-. cbn [th_phase].
    split; [auto|]. split; [intros (k' & X & _); destruct o; discriminate|]. split; [intros k' _ []|]. split; [auto|intros (k' & X & _); discriminate].
  - injection H as <- <- <-. cbn [th_phase]. split; [auto|]. split; [intros (k' & X & _); discriminate|]. split; [intros k' _ []|]. split; [auto|intros (k' & X & _); discriminate].
  - destruct k; injection H as <- <- <-; cbn [th_phase p_used].
    + split; [auto|]. split; [auto|]. split; [intros k' _ []|]. split; [intros _; right; exists IVec; split; [reflexivity|discriminate]|intros (k' & X & _); discriminate].
    + split; [auto|]. split; [auto|]. split; [intros k' _ []|]. split; [intros _; right; exists IBridge; split; [reflexivity|discriminate]|intros (k' & X & _); discriminate].
    + split; [auto|]. split; [intros (k' & X & Y); injection X as <-; contradiction|]. split; [intros k' _ []|]. split; [auto|intros (k' & X & _); discriminate].
  - injection H as <- <- <-. cbn [th_phase]. split; [auto|]. split; [intros (k' & X & _); discriminate|]. split; [intros k' _ []|]. split; [auto|intros (k' & X & _); discriminate].
  - injection H as <- <- <-. cbn [th_phase]. split; [auto|]. split; [intros (k' & X & _); discriminate|]. split.
    + intros k' NK [X|[]]. injection X as <- ->. apply M. exists k. auto.
    + split; [auto|]. intros (k' & X & Y). injection X as <- ->. right. exists k. split; [exact Y|left; reflexivity].
Qed.

Lemma run_used s : forall p ts p' ts' ev, run p ts s = Ok (p', ts', ev) -> (forall t, In t ts -> marks t -> p_used p = true) ->
  (p_used p = true -> p_used p' = true) /\ (forall t, In t ts' -> marks t -> p_used p' = true) /\ (forall k, k <> IChunks -> In (Started k true) ev -> p_used p' = true) /\
  ((exists t, In t ts /\ marks t) -> (exists t, In t ts' /\ marks t) \/ exists k, k <> IChunks /\ In (Started k true) ev) /\
  (p_used p' = true -> p_used p = true \/ (exists t, In t ts' /\ marks t) \/ exists k, k <> IChunks /\ In (Started k true) ev).
Proof.
  induction s as [|i s IH]; intros p ts p' ts' ev H M; cbn [run] in H.
  - injection H as <- <- <-. split; [auto|]. split; [exact M|]. split; [intros k _ []|]. auto.
  - destruct (nth_error ts i) as [t|] eqn:EN; [|apply IH with (1 := H); exact M]. destruct (step p t) as [[[p1 t1] e1]| |] eqn:ES; try discriminate. cbn [bind] in H.
    destruct (run p1 (set_nth i t1 ts) s) as [[[p2 ts2] e2]| |] eqn:ER; try discriminate. cbn [bind] in H. injection H as <- <- <-.
    destruct (step_used _ _ _ _ _ ES (M t (nth_error_In _ _ EN))) as (A1 & A2 & A3 & A4 & A5).
    assert (M1 : forall u, In u (set_nth i t1 ts) -> marks u -> p_used p1 = true). { intros u Hu Mu. destruct (set_nth_in _ _ _ _ Hu) as [->|Hu']; [auto|]. apply A1. eapply M; eauto. }
    destruct (IH _ _ _ _ _ ER M1) as (B1 & B2 & B3 & B4 & B5).
    assert (KN : (exists k, k <> IChunks /\ In (Started k true) e2) -> exists k, k <> IChunks /\ In (Started k true) (e1 ++ e2)) by (intros (k & Nk & Hk); exists k; split; [exact Nk|apply in_or_app; auto]).
    assert (KT : marks t1 -> (exists u, In u ts2 /\ marks u) \/ exists k, k <> IChunks /\ In (Started k true) (e1 ++ e2)).
    { intros M'. destruct B4 as [B4|B4]; [exists t1; split; [eapply set_nth_self; eauto|exact M']|auto|auto]. }
    split; [auto|]. split; [exact B2|]. split; [intros k Nk Hk; apply in_app_or in Hk; destruct Hk as [Hk|Hk]; [apply B1; eauto|eauto]|]. split.
    + intros (u & Hu & Mu). destruct (set_nth_other i t1 t u ts EN Hu) as [->|Hu'].
      * destruct (A5 Mu) as [M'|(k & Nk & Hk)]; [auto|]. right. exists k. split; [exact Nk|apply in_or_app; auto].
      * destruct B4 as [B4|B4]; [eauto|auto|auto].
    + intros U. destruct (B5 U) as [U1|[U1|U1]]; [|auto|auto]. destruct (A4 U1) as [U2|U2]; auto.
Qed.

Lemma fresh_marks programs p : forall t, In t (starts programs) -> marks t -> p_used p = true.
Proof. intros t Ht (k & X & _). unfold starts in Ht. apply in_map_iff in Ht. destruct Ht as (c & <- & _). discriminate. Qed.

(** In any schedule, when a parallel iterator over a collection or a bridge has
    started, this is known, and only then or when one is about to start. *)
Theorem C78_used : forall v programs schedule p ts ev, run (fresh v) (starts programs) schedule = Ok (p, ts, ev) ->
  (forall k, k <> IChunks -> In (Started k true) ev -> p_used p = true) /\
  (p_used p = true -> (exists k, k <> IChunks /\ In (Started k true) ev) \/ exists t k, In t ts /\ th_phase t = Ready k true /\ k <> IChunks).
Proof.
  intros v programs schedule p ts ev H. destruct (run_used _ _ _ _ _ _ H (fresh_marks _ _)) as (_ & _ & A & _ & B). split; [exact A|].
  intros U. destruct (B U) as [X|[(t & Ht & k & E & N)|X]]; [discriminate|right; exists t, k; auto|auto].
Qed.

(** Once known it stays known. *)
Theorem C78_used_stays : forall v programs s1 s2 p1 ts1 e1 p2 ts2 e2, run (fresh v) (starts programs) s1 = Ok (p1, ts1, e1) ->
  run (fresh v) (starts programs) (s1 ++ s2) = Ok (p2, ts2, e2) -> p_used p1 = true -> p_used p2 = true.
Proof.
  intros v programs s1 s2 p1 ts1 e1 p2 ts2 e2 H1 H2 U. rewrite (run_app _ _ _ _ _ _ _ H1) in H2. destruct (run p1 ts1 s2) as [[[p3 ts3] e3]| |] eqn:E; try discriminate. cbn [bind] in H2. injection H2 as <- <- _.
  destruct (run_used _ _ _ _ _ _ H1 (fresh_marks _ _)) as (_ & M & _). destruct (run_used _ _ _ _ _ _ E M) as (A & _). auto.
Qed.

(** Not so with chunks, which the Unigram trainer uses. *)
Theorem C78_chunks_refuted : exists schedule p ts, run (fresh EAbsent) (starts [[Iterate IChunks true]]) schedule = Ok (p, ts, [Started IChunks true]) /\ p_used p = false.
Proof. exists [0; 0; 0; 0]. do 2 eexists. split; reflexivity. Qed.

(** ** Off *)
Definition calm (t : thread) : Prop := Forall (fun c => ~ sets_on c) (th_todo t) /\ match th_phase t with ReadEnv _ => False | Chosen _ par => par = false | Ready _ par => par = false | Outside => True end.
Lemma run_calm s : forall p ts p' ts' ev, run p ts s = Ok (p', ts', ev) -> p_flag p = 1%N -> Forall calm ts -> forall k par, In (Started k par) ev -> par = false.
Proof.
  induction s as [|i s IH]; intros p ts p' ts' ev H F C k par I; cbn [run] in H; [injection H as <- <- <-; destruct I|].
  destruct (nth_error ts i) as [[todo ph]|] eqn:EN; [|eapply IH; eauto]. assert (CT := proj1 (Forall_forall calm ts) C _ (nth_error_In _ _ EN)). destruct CT as [CT CP]. cbn [th_todo th_phase] in CT, CP.
  assert (X : exists p1 t1 e1, step p (mkThread todo ph) = Ok (p1, t1, e1) /\ p_flag p1 = 1%N /\ calm t1 /\ forall k par, In (Started k par) e1 -> par = false).
  { unfold step. cbn [th_phase th_todo]. destruct ph as [|k'|k' b|k' b]; [|destruct CP|subst b|subst b].
    - destruct todo as [|[b|v|k' []] rest].
      + do 3 eexists. split; [reflexivity|]. split; [exact F|]. split; [split; [constructor|exact Logic.I]|intros ? ? []].
      + apply Forall_cons_iff in CT. destruct CT as [C1 C2]. destruct b; [exfalso; apply C1; reflexivity|]. do 3 eexists. split; [reflexivity|]. split; [reflexivity|]. split; [split; [exact C2|exact Logic.I]|intros ? ? []].
      + apply Forall_cons_iff in CT. do 3 eexists. split; [reflexivity|]. split; [exact F|]. split; [split; [apply CT|exact Logic.I]|intros ? ? []].
      + apply Forall_cons_iff in CT. rewrite F. do 3 eexists. split; [reflexivity|]. split; [exact F|]. split; [split; [apply CT|reflexivity]|intros ? ? []].
      + apply Forall_cons_iff in CT. do 3 eexists. split; [reflexivity|]. split; [exact F|]. split; [split; [apply CT|reflexivity]|intros ? ? []].
    - do 3 eexists. split; [reflexivity|]. split; [exact F|]. split; [split; [exact CT|reflexivity]|intros ? ? []].
    - do 3 eexists. split; [reflexivity|]. split; [exact F|]. split; [split; [exact CT|exact Logic.I]|]. intros k2 par2 [E|[]]. injection E as _ <-. reflexivity. }
  destruct X as (p1 & t1 & e1 & ES & F1 & C1 & E1). rewrite ES in H. cbn [bind] in H. destruct (run p1 (set_nth i t1 ts) s) as [[[p2 ts2] e2]| |] eqn:ER; try discriminate. cbn [bind] in H. injection H as <- <- <-.
  apply in_app_or in I. destruct I as [I|I]; [eauto|]. eapply IH; [exact ER|exact F1| |exact I]. apply Forall_forall. intros u Hu. destruct (set_nth_in _ _ _ _ Hu) as [->|Hu']; [exact C1|]. rewrite Forall_forall in C. auto.
Qed.

(** After [set_parallelism(false)] nothing runs in parallel until it is switched on
    again, whatever the environment says. *)
Theorem C78_off : forall p programs schedule p' ts ev, Forall (Forall (fun c => ~ sets_on c)) programs ->
  run (set_parallelism false p) (starts programs) schedule = Ok (p', ts, ev) -> forall k par, In (Started k par) ev -> par = false.
Proof.
  intros p programs schedule p' ts ev F H. eapply run_calm; [exact H|reflexivity|]. unfold starts. apply Forall_map. eapply Forall_impl; [|exact F]. intros l X. split; [exact X|exact Logic.I].
Qed.

(** ** Forks *)
Lemma run_unset s : forall p ts p' ts' ev, run p ts s = Ok (p', ts', ev) -> Forall (fun t => Forall (fun c => ~ is_set c) (th_todo t)) ts -> p_flag p' = p_flag p.
Proof.
  induction s as [|i s IH]; intros p ts p' ts' ev H C; cbn [run] in H; [injection H as <- <- <-; reflexivity|].
  destruct (nth_error ts i) as [t|] eqn:EN; [|eapply IH; eauto]. assert (CT := proj1 (Forall_forall _ ts) C _ (nth_error_In _ _ EN)). cbn beta in CT.
  destruct (step p t) as [[[p1 t1] e1]| |] eqn:ES; try discriminate. cbn [bind] in H. destruct (run p1 (set_nth i t1 ts) s) as [[[p2 ts2] e2]| |] eqn:ER; try discriminate. cbn [bind] in H. injection H as <- <- <-.
  assert (X : p_flag p1 = p_flag p /\ Forall (fun c => ~ is_set c) (th_todo t1)).
  { destruct t as [todo ph]. unfold step in ES. cbn [th_phase th_todo] in ES, CT. destruct ph as [|k|k []|k par].
    - destruct todo as [|[b|v|k []] rest]; try (injection ES as <- <- <-; cbn [th_todo p_flag]; split; [reflexivity|try exact CT; apply Forall_cons_iff in CT; apply CT]).
      + apply Forall_cons_iff in CT. destruct CT as [CT _]. exfalso. apply CT. eexists. reflexivity.
      + destruct (override (p_flag p)) as [o| |]; try discriminate. cbn [bind] in ES. injection ES as <- <- <-. apply Forall_cons_iff in CT. split; [reflexivity|apply CT].
    - injection ES as <- <- <-. auto.
    - destruct k; injection ES as <- <- <-; auto.
    - injection ES as <- <- <-. auto.
    - injection ES as <- <- <-. auto. }
  destruct X as [X1 X2]. rewrite <- X1. eapply IH; [exact ER|]. apply Forall_forall. intros u Hu. destruct (set_nth_in _ _ _ _ Hu) as [->|Hu']; [exact X2|]. rewrite Forall_forall in C. auto.
Qed.

(** A process in which a parallel iterator over a collection or a bridge has run,
    and where the user has not asked for anything: after a fork, whatever the child
    does, nothing runs in parallel in it, unless it asks for it. *)
Theorem C78_fork : forall v programs schedule p ts ev k,
  run (fresh v) (starts programs) schedule = Ok (p, ts, ev) -> Forall (Forall (fun c => ~ is_set c)) programs -> (forall s, p_env p <> EText s) ->
  In (Started k true) ev -> k <> IChunks ->
  exists p', child_after_fork p = Ok p' /\
    forall children schedule' p2 ts2 ev2, Forall (Forall (fun c => ~ sets_on c)) children -> run p' (starts children) schedule' = Ok (p2, ts2, ev2) ->
      forall k par, In (Started k par) ev2 -> par = false.
Proof.
  intros v programs schedule p ts ev k H NS NE I NK. destruct (C78_used _ _ _ _ _ _ H) as [U _]. specialize (U k NK I).
  assert (F : p_flag p = 0%N). { rewrite (run_unset _ _ _ _ _ _ H); [reflexivity|]. unfold starts. apply Forall_map. exact NS. }
  exists (set_parallelism false p). split.
  - unfold child_after_fork, configured. rewrite U, F. destruct (p_env p) eqn:E; [reflexivity|reflexivity|destruct (NE s eq_refl)].
  - intros children schedule' p2 ts2 ev2 C R. eapply C78_off; eassumption.
Qed.
Example C78_fork_example : exists schedule p ts ev, run (fresh EAbsent) (starts [[Iterate IVec true]; [Iterate IBridge true; Iterate IVec false]]) schedule = Ok (p, ts, ev) /\
  In (Started IBridge true) ev /\ p_env p = EAbsent /\ child_after_fork p = Ok (mkProcess 1 true EAbsent).
Proof. exists [0; 1; 1; 0; 1; 1; 0]. do 3 eexists. split; [reflexivity|]. split; [left; reflexivity|]. split; reflexivity. Qed.

(** What the user has asked for stays in the child. *)
Theorem C78_fork_configured : forall p, configured p = Ok true -> child_after_fork p = Ok p.
Proof. intros p H. unfold child_after_fork. rewrite H. destruct (p_used p); reflexivity. Qed.

(** Not so after parallel chunks: the child may run in parallel. *)
Theorem C78_fork_chunks_refuted : exists schedule p ts p' schedule' p2 ts2,
  run (fresh EAbsent) (starts [[Iterate IChunks true]]) schedule = Ok (p, ts, [Started IChunks true]) /\ child_after_fork p = Ok p' /\
  run p' (starts [[Iterate IVec true]]) schedule' = Ok (p2, ts2, [Started IVec true]).
Proof. exists [0; 0; 0; 0]. do 3 eexists. exists [0; 0; 0; 0]. do 2 eexists. split; [reflexivity|]. split; reflexivity. Qed.
