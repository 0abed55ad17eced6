(** Proofs about the threads of [PyLockModel]. *)
From Verif Require Import Base PyLockModel PyLockSpec.

Section lists.
  Context {A : Type}.
  Lemma set_length (l : list A) i x : length (set_at l i x) = length l.
  Proof. revert i. induction l as [|y l IH]; intros [|i]; cbn [set_at length]; auto. Qed.
  Lemma set_same (l : list A) i x y : nth_error l i = Some y -> nth_error (set_at l i x) i = Some x.
  Proof. revert i. induction l as [|z l IH]; intros [|i] H; cbn [set_at nth_error] in *; try discriminate; auto. Qed.
  Lemma set_other (l : list A) i j x : i <> j -> nth_error (set_at l i x) j = nth_error l j.
  Proof. revert i j. induction l as [|z l IH]; intros [|i] [|j] H; cbn [set_at nth_error]; auto; try lia. Qed.
  Lemma set_nth (l : list A) i j x y : nth_error (set_at l i x) j = Some y -> i = j /\ y = x \/ i <> j /\ nth_error l j = Some y.
  Proof.
    intros H. destruct (Nat.eq_dec i j) as [<-|D]; [left|right; rewrite set_other in H by assumption; auto].
    split; [reflexivity|]. destruct (nth_error l i) as [z|] eqn:E.
    - rewrite (set_same _ _ _ _ E) in H. congruence.
    - apply nth_error_None in E. rewrite <- (set_length l i x) in E. apply nth_error_None in E. congruence.
  Qed.
  Definition b2n (b : bool) : nat := if b then 1 else 0.
  Fixpoint cnt (f : A -> bool) (l : list A) : nat := match l with [] => 0 | x :: l' => b2n (f x) + cnt f l' end.
  Lemma cnt_set f (l : list A) i x y : nth_error l i = Some y -> cnt f (set_at l i x) + b2n (f y) = cnt f l + b2n (f x).
  Proof. revert i. induction l as [|z l IH]; intros [|i] H; cbn [set_at nth_error cnt] in *; try discriminate; [injection H as ->; lia|]. specialize (IH i H). lia. Qed.
  Lemma cnt_0 f (l : list A) i x : cnt f l = 0 -> nth_error l i = Some x -> f x = false.
  Proof. revert i. induction l as [|z l IH]; intros [|i] C H; cbn [nth_error cnt] in *; try discriminate; [injection H as ->; destruct (f x); cbn in C; [lia|reflexivity]|]. apply (IH i); [lia|assumption]. Qed.
  Lemma cnt_1 f (l : list A) i j x y : cnt f l <= 1 -> nth_error l i = Some x -> f x = true -> nth_error l j = Some y -> f y = true -> i = j.
  Proof.
    revert i j. induction l as [|z l IH]; intros [|i] [|j] C H F H' F'; cbn [nth_error cnt] in *; try discriminate; auto.
    - injection H as ->. rewrite F in C. cbn [b2n] in C. enough (f y = false) by congruence. apply (cnt_0 f l j); [lia|assumption].
    - injection H' as ->. rewrite F' in C. cbn [b2n] in C. enough (f x = false) by congruence. apply (cnt_0 f l i); [lia|assumption].
    - f_equal. apply (IH i j); auto. lia.
  Qed.
  Lemma cnt_pos f (l : list A) i x : nth_error l i = Some x -> f x = true -> 1 <= cnt f l.
  Proof. revert i. induction l as [|z l IH]; intros [|i] H F; cbn [nth_error cnt] in *; try discriminate; [injection H as ->; rewrite F; cbn; lia|]. specialize (IH i H F). lia. Qed.
  Lemma cnt_none f (l : list A) : (forall i x, nth_error l i = Some x -> f x = false) -> cnt f l = 0.
  Proof. induction l as [|z l IH]; intros H; cbn [cnt]; [reflexivity|]. rewrite (H 0 z eq_refl), IH; [reflexivity|]. intros i x N. exact (H (Datatypes.S i) x N). Qed.
  Lemma find_in (f : A -> bool) (l : list A) : (exists i x, nth_error l i = Some x /\ f x = true) \/ (forall i x, nth_error l i = Some x -> f x = false).
  Proof.
    induction l as [|z l [(i & x & N & F) | H]].
    - right. intros [|i] x N; discriminate N.
    - left. exists (Datatypes.S i), x. auto.
    - destruct (f z) eqn:F; [left; exists 0, z; auto|]. right. intros [|i] x N; cbn in N; [congruence|exact (H i x N)].
  Qed.
End lists.

Section locks.
  Context {S R : Type} (prefer : bool).
  Notation call := (call S R). Notation act := (act S R). Notation tstate := (tstate S R). Notation machine := (machine S R).

  Definition reads (x : tstate) : bool := match x with Body c _ _ => negb (c_write c) | _ => false end.
  Definition writes (x : tstate) : bool := match x with Body c _ _ => c_write c | _ => false end.

  Lemma reads_alone a s : only_reads a -> fst (alone (R := R) (S := S) s a) = s.
  Proof. intros H. induction H; cbn [alone]; auto. Qed.
  Lemma in_turn_app (s : S) l l' s2 : in_turn s (l ++ l') s2 <-> exists s1, @in_turn S R s l s1 /\ in_turn s1 l' s2.
  Proof.
    split.
    - revert s. induction l as [|[[t c] r] l IH]; intros s H; [exists s; split; [constructor|assumption]|].
      cbn [app] in H. inversion H; subst. destruct (IH _ ltac:(eassumption)) as (s3 & I1 & I2). exists s3. split; [econstructor; eassumption|assumption].
    - intros (s1 & H & H'). induction H; [assumption|]. cbn [app]. econstructor; eauto.
  Qed.
  Lemma in_turn_fun (s : S) l s1 s2 : @in_turn S R s l s1 -> in_turn s l s2 -> s1 = s2.
  Proof. intros H. revert s2. induction H; intros s3 H'; inversion H'; subst; [reflexivity|]. apply IHin_turn. congruence. Qed.

  (** What holds of every machine that is reached. *)
  Record inv (s0 : S) (programs : list (list call)) (m : machine) : Prop := mkInv {
    i_len : length (m_threads m) = length programs;
    i_calls : forall t x p, nth_error (m_threads m) t = Some x -> nth_error programs t = Some p -> p = calls_of t (m_log m) ++ pending x;
    i_readers : m_readers m = cnt reads (m_threads m);
    i_writer : b2n (m_writer m) = cnt writes (m_threads m);
    i_either : m_writer m = true -> m_readers m = 0;
    i_gil : forall t, m_gil m = Some t -> exists x, nth_error (m_threads m) t = Some x /\ match x with Idle _ => True | Want c _ | Body c _ _ => c_detach c = false | Back _ => False end;
    i_atomic : exists s1, in_turn s0 (m_log m) s1 /\
      (m_writer m = false -> m_state m = s1) /\
      (forall t c rest a, nth_error (m_threads m) t = Some (Body c rest a) ->
         if c_write c then alone (m_state m) a = alone s1 (c_body c)
         else only_reads a /\ alone (m_state m) a = alone (m_state m) (c_body c)) }.

  Lemma calls_app t log e : calls_of (S := S) (R := R) t (log ++ [e]) = calls_of t log ++ (if fst (fst e) =? t then [snd (fst e)] else []).
  Proof. unfold calls_of. rewrite filter_app, map_app. cbn [filter]. destruct (fst (fst e) =? t); reflexivity. Qed.

  Lemma inv_start s programs : inv s programs (start s programs).
  Proof.
    unfold start. constructor; cbn [m_threads m_log m_readers m_writer m_gil m_state].
    - apply map_length.
    - intros t x p H P. rewrite nth_error_map, P in H. cbn in H. injection H as <-. reflexivity.
    - symmetry. apply cnt_none. intros i x H. rewrite nth_error_map in H. destruct (nth_error programs i); [injection H as <-; reflexivity|discriminate].
    - symmetry. apply cnt_none. intros i x H. rewrite nth_error_map in H. destruct (nth_error programs i); [injection H as <-; reflexivity|discriminate].
    - discriminate.
    - discriminate.
    - exists s. split; [constructor|]. split; [reflexivity|]. intros t c rest a H. rewrite nth_error_map in H. destruct (nth_error programs t); discriminate.
  Qed.

  (** A step of thread [t] that changes neither the lock nor the tokenizer. *)
  Lemma inv_move s0 programs m t x y g : inv s0 programs m -> nth_error (m_threads m) t = Some x -> pending y = pending x ->
    reads y = reads x -> writes y = writes x ->
    (forall c rest a, y = Body c rest a -> exists a', x = Body c rest a' /\ alone (m_state m) a = alone (m_state m) a' /\ (only_reads a' -> only_reads a)) ->
    (forall h, g = Some h -> h = t /\ match y with Idle _ => True | Want c _ | Body c _ _ => c_detach c = false | Back _ => False end \/ h <> t /\ m_gil m = Some h) ->
    inv s0 programs (put (with_gil g m) t y).
  Proof.
    intros [L C Rd W E G (s1 & I1 & I2 & I3)] N P Hr Hw Hb Hg. unfold put, with_gil. constructor; cbn [m_threads m_log m_readers m_writer m_gil m_state].
    - rewrite set_length. assumption.
    - intros t' x' p N' P'. apply set_nth in N'. destruct N' as [(<- & ->) | (D & N')]; [rewrite P|]; eapply C; eassumption.
    - pose proof (cnt_set reads _ _ y _ N). rewrite Hr in H. lia.
    - pose proof (cnt_set writes _ _ y _ N). rewrite Hw in H. lia.
    - assumption.
    - intros h Eh. destruct (Hg h Eh) as [(-> & Hm) | (D & Em)].
      + exists y. split; [apply (set_same _ _ _ _ N)|assumption].
      + destruct (G h Em) as (z & Nz & Hz). exists z. rewrite set_other by auto. auto.
    - exists s1. split; [assumption|]. split; [assumption|]. intros t' c rest a N'. apply set_nth in N'. destruct N' as [(<- & Ey) | (D & N')]; [|apply (I3 _ _ _ _ N')].
      symmetry in Ey. destruct (Hb c rest a Ey) as (a' & -> & Ea & Ho). specialize (I3 _ _ _ _ N). destruct (c_write c); [congruence|]. destruct I3 as (O1 & O2). split; [auto|congruence].
  Qed.
  Lemma inv_gil s0 programs m g : inv s0 programs m -> (forall h, g = Some h -> exists x, nth_error (m_threads m) h = Some x /\ match x with Idle _ => True | Want c _ | Body c _ _ => c_detach c = false | Back _ => False end) -> inv s0 programs (with_gil g m).
  Proof. intros [L C Rd W E G I] H. unfold with_gil. constructor; cbn [m_threads m_log m_readers m_writer m_gil m_state]; assumption. Qed.
  Lemma with_same (m : machine) : with_gil (m_gil m) m = m.
  Proof. destruct m. reflexivity. Qed.
  Lemma gil_at (m : machine) t : has_gil m t = true <-> m_gil m = Some t.
  Proof. unfold has_gil. destruct (m_gil m) as [h|]; [|split; discriminate]. rewrite Nat.eqb_eq. split; congruence. Qed.
  Lemma gil_no (m : machine) : gil_free m = true <-> m_gil m = None.
  Proof. unfold gil_free. destruct (m_gil m); split; congruence. Qed.

  Lemma inv_go s0 programs t m m' : Forall (Forall honest) programs -> inv s0 programs m -> go prefer t m = Some m' -> inv s0 programs m'.
  Proof.
    intros H I E. unfold go in E. destruct (nth_error (m_threads m) t) as [x|] eqn:N; [|discriminate].
    assert (forall c rest, x = Want c rest -> honest c) as Hc.
    { intros c rest ->. assert (exists p, nth_error programs t = Some p) as (p & P).
      { destruct (nth_error programs t) eqn:P; [eauto|]. apply nth_error_None in P. rewrite <- (i_len _ _ _ I) in P. apply nth_error_None in P. congruence. }
      pose proof (i_calls _ _ _ I _ _ _ N P) as Ep. cbn [pending] in Ep. rewrite Forall_forall in H. specialize (H _ (nth_error_In _ _ P)).
      rewrite Ep, Forall_app in H. destruct H as (_ & H). inversion H; assumption. }
    destruct x as [rest | c rest | c rest a | rest].
    - destruct (has_gil m t) eqn:Hg.
      + destruct rest as [|c rest]; injection E as <-; [apply inv_gil; [assumption|discriminate]|].
        assert ((if c_detach c then with_gil None m else m) = with_gil (if c_detach c then None else m_gil m) m) as -> by (destruct (c_detach c); [reflexivity|symmetry; apply with_same]).
        apply (inv_move _ _ _ _ _ _ _ I N); try reflexivity; [discriminate|]. intros h Eh. apply gil_at in Hg. destruct (c_detach c) eqn:D; [discriminate|]. left. split; [congruence|reflexivity].
      + destruct (gil_free m && _) eqn:F; [|discriminate]. injection E as <-. apply inv_gil; [assumption|]. intros h [= <-]. exists (Idle rest). auto.
    - destruct (grant prefer m (c_write c)) eqn:Gr; [|discriminate]. injection E as <-. specialize (Hc c rest eq_refl).
      destruct I as [L C Rd W Ei G (s1 & I1 & I2 & I3)]. unfold grant in Gr.
      assert (m_writer m = false) as Mw by (destruct (c_write c), (m_writer m); cbn in Gr; try reflexivity; try discriminate; rewrite andb_false_r in Gr; discriminate).
      assert (c_write c = true -> m_readers m = 0) as Mr by (intros Ew; rewrite Ew in Gr; apply andb_true_iff in Gr; destruct Gr as (Gr & _); apply Nat.eqb_eq in Gr; assumption).
      constructor; cbn [m_threads m_log m_readers m_writer m_gil m_state].
      + rewrite set_length. assumption.
      + intros t' x' p N' P'. apply set_nth in N'. destruct N' as [(<- & ->) | (D & N')]; [|eapply C; eassumption]. apply (C _ _ _ N P').
      + pose proof (cnt_set reads _ _ (Body c rest (c_body c)) _ N) as X. cbn [reads b2n] in X. destruct (c_write c); cbn [negb b2n] in X; lia.
      + pose proof (cnt_set writes _ _ (Body c rest (c_body c)) _ N) as X. cbn [writes b2n] in X. rewrite Mw in *. cbn [b2n] in W. destruct (c_write c); cbn [orb b2n] in *; lia.
      + rewrite Mw. destruct (c_write c); [auto|discriminate].
      + intros h Eh. destruct (G h Eh) as (z & Nz & Hz). destruct (Nat.eq_dec t h) as [<-|D].
        * eexists. split; [apply (set_same _ _ _ _ N)|]. rewrite N in Nz. injection Nz as <-. assumption.
        * exists z. rewrite set_other by auto. auto.
      + exists s1. split; [assumption|]. split; [intros; auto|]. intros t' c' rest' a' N'. apply set_nth in N'. destruct N' as [(<- & Ey) | (D & N')]; [|apply (I3 _ _ _ _ N')].
        injection Ey as -> -> ->. rewrite (I2 Mw). destruct (c_write c) eqn:Ew; [reflexivity|]. split; [exact (Hc Ew)|reflexivity].
    - destruct a as [r | k | s k | k | w k].
      + injection E as <-. destruct I as [L C Rd W Ei G (s1 & I1 & I2 & I3)].
        pose proof (cnt_set reads _ _ (if c_detach c then Back rest else Idle rest) _ N) as Xr. pose proof (cnt_set writes _ _ (if c_detach c then Back rest else Idle rest) _ N) as Xw.
        assert (reads (if c_detach c then Back rest else Idle rest) = false /\ writes (if c_detach c then Back rest else Idle rest) = false) as (R1 & R2) by (destruct (c_detach c); auto).
        rewrite R1 in Xr. rewrite R2 in Xw. cbn [reads writes b2n] in Xr, Xw.
        assert (c_write c = true -> m_writer m = true) as Mw by (intros Ew; pose proof (cnt_pos writes _ _ _ N Ew) as X; rewrite <- W in X; destruct (m_writer m); [reflexivity|cbn in X; lia]).
        pose proof (I3 _ _ _ _ N) as I4. cbn [alone] in I4.
        constructor; cbn [m_threads m_log m_readers m_writer m_gil m_state].
        * rewrite set_length. assumption.
        * intros t' x' p N' P'. rewrite calls_app. cbn [fst snd]. apply set_nth in N'. destruct N' as [(<- & ->) | (D & N')].
          -- rewrite Nat.eqb_refl, <- app_assoc. cbn [app]. rewrite (C _ _ _ N P'). cbn [pending]. destruct (c_detach c); reflexivity.
          -- replace (t =? t') with false by (symmetry; apply Nat.eqb_neq; assumption). rewrite app_nil_r. eapply C; eassumption.
        * destruct (c_write c); cbn [negb b2n] in Xr; lia.
        * destruct (c_write c) eqn:Ew; cbn [b2n] in *; [rewrite (Mw eq_refl) in W; cbn in W; lia|lia].
        * destruct (c_write c) eqn:Ew; [discriminate|]. intros M1. rewrite (Ei M1). reflexivity.
        * intros h Eh. destruct (G h Eh) as (z & Nz & Hz). destruct (Nat.eq_dec t h) as [<-|D].
          -- eexists. split; [apply (set_same _ _ _ _ N)|]. rewrite N in Nz. injection Nz as <-. rewrite Hz. exact Logic.I.
          -- exists z. rewrite set_other by auto. auto.
        * assert (m_writer m = true -> c_write c = true) as Mc.
          { intros M1. destruct (c_write c) eqn:Ew; [reflexivity|]. pose proof (cnt_pos reads _ _ (Body c rest (Ret r)) N) as X. cbn [reads] in X. rewrite Ew in X. specialize (X eq_refl). rewrite <- Rd, (Ei M1) in X. lia. }
          exists (m_state m). destruct (c_write c) eqn:Ew.
          -- split; [apply in_turn_app; exists s1; split; [assumption|]; econstructor; [symmetry; exact I4|constructor]|]. split; [reflexivity|].
             intros t' c' rest' a' N'. apply set_nth in N'. destruct N' as [(<- & Ey) | (D & N')]; [destruct (c_detach c); discriminate|].
             specialize (I3 _ _ _ _ N'). destruct (c_write c') eqn:Ew'; [|assumption]. exfalso. apply D.
             apply (cnt_1 writes (m_threads m) t t' (Body c rest (Ret r)) (Body c' rest' a')); auto. rewrite <- W. destruct (m_writer m); cbn; lia.
          -- assert (m_writer m = false) as Mf by (destruct (m_writer m); [specialize (Mc eq_refl); discriminate|reflexivity]). rewrite (I2 Mf) in *.
             split; [apply in_turn_app; exists s1; split; [assumption|]; econstructor; [symmetry; apply I4|constructor]|]. split; [reflexivity|].
             intros t' c' rest' a' N'. apply set_nth in N'. destruct N' as [(<- & Ey) | (D & N')]; [destruct (c_detach c); discriminate|].
             apply (I3 _ _ _ _ N').
      + injection E as <-. rewrite <- (with_same m) at 1. apply (inv_move _ _ _ _ _ _ _ I N); try reflexivity.
        * intros c' rest' a' [= <- <- <-]. exists (Get k). split; [reflexivity|]. split; [reflexivity|]. intros O. inversion O; subst. auto.
        * intros h Eh. destruct (Nat.eq_dec h t) as [->|D]; [left|right; auto]. split; [reflexivity|]. destruct (i_gil _ _ _ I _ Eh) as (z & Nz & Hz). rewrite N in Nz. injection Nz as <-. exact Hz.
      + injection E as <-. destruct I as [L C Rd W Ei G (s1 & I1 & I2 & I3)].
        pose proof (cnt_set reads _ _ (Body c rest k) _ N) as Xr. pose proof (cnt_set writes _ _ (Body c rest k) _ N) as Xw. cbn [reads writes] in Xr, Xw.
        pose proof (I3 _ _ _ _ N) as I4. destruct (c_write c) eqn:Ew; [|destruct I4 as (O & _); inversion O].
        assert (m_writer m = true) as Mw by (pose proof (cnt_pos writes _ _ (Body c rest (Put s k)) N Ew) as X; rewrite <- W in X; destruct (m_writer m); [reflexivity|cbn in X; lia]).
        constructor; cbn [m_threads m_log m_readers m_writer m_gil m_state].
        * rewrite set_length. assumption.
        * intros t' x' p N' P'. apply set_nth in N'. destruct N' as [(<- & ->) | (D & N')]; [|eapply C; eassumption]. apply (C _ _ _ N P').
        * lia.
        * lia.
        * assumption.
        * intros h Eh. destruct (G h Eh) as (z & Nz & Hz). destruct (Nat.eq_dec t h) as [<-|D].
          -- eexists. split; [apply (set_same _ _ _ _ N)|]. rewrite N in Nz. injection Nz as <-. exact Hz.
          -- exists z. rewrite set_other by auto. auto.
        * exists s1. split; [assumption|]. split; [congruence|]. intros t' c' rest' a' N'. apply set_nth in N'. destruct N' as [(<- & Ey) | (D & N')].
          -- injection Ey as -> -> ->. rewrite Ew. exact I4.
          -- specialize (I3 _ _ _ _ N'). destruct (c_write c') eqn:Ew'.
             ++ exfalso. apply D. apply (cnt_1 writes (m_threads m) t t' (Body c rest (Put s k)) (Body c' rest' a')); auto. rewrite <- W. destruct (m_writer m); cbn; lia.
             ++ exfalso. pose proof (cnt_pos reads _ _ (Body c' rest' a') N') as X. cbn [reads] in X. rewrite Ew' in X. specialize (X eq_refl). rewrite <- Rd, (Ei Mw) in X. lia.
      + assert (inv s0 programs (put m t (Body c rest k))) as J.
        { rewrite <- (with_same m) at 1. apply (inv_move _ _ _ _ _ _ _ I N); try reflexivity.
          - intros c' rest' a' [= <- <- <-]. exists (Py k). split; [reflexivity|]. split; [reflexivity|]. intros O. inversion O; subst. auto.
          - intros h Eh. destruct (Nat.eq_dec h t) as [->|D]; [left|right; auto]. split; [reflexivity|]. destruct (i_gil _ _ _ I _ Eh) as (z & Nz & Hz). rewrite N in Nz. injection Nz as <-. exact Hz. }
        destruct (c_detach c) eqn:Ed; [destruct (gil_free m); [congruence|discriminate]|]. destruct (has_gil m t); [congruence|]. destruct (gil_free m); [|discriminate].
        injection E as <-. apply inv_gil; [assumption|]. intros h [= <-]. eexists. split; [exact N|]. exact Ed.
      + destruct (grant prefer m w); [|discriminate]. injection E as <-. rewrite <- (with_same m) at 1. apply (inv_move _ _ _ _ _ _ _ I N); try reflexivity.
        * intros c' rest' a' [= <- <- <-]. exists (Again w k). split; [reflexivity|]. split; [reflexivity|]. intros O. inversion O; subst. auto.
        * intros h Eh. destruct (Nat.eq_dec h t) as [->|D]; [left|right; auto]. split; [reflexivity|]. destruct (i_gil _ _ _ I _ Eh) as (z & Nz & Hz). rewrite N in Nz. injection Nz as <-. exact Hz.
    - destruct (gil_free m) eqn:F; [|discriminate]. injection E as <-. apply (inv_move _ _ _ _ _ _ _ I N); try reflexivity; [discriminate|].
      intros h [= <-]. left. auto.
  Qed.
  Lemma inv_yield s0 programs t m m' : inv s0 programs m -> yield t m = Some m' -> inv s0 programs m'.
  Proof.
    intros I E. unfold yield in E. destruct (has_gil m t); [|discriminate]. destruct (nth_error (m_threads m) t) as [[[|c rest] | | c rest [| | | |] | ]|]; try discriminate.
    - injection E as <-. apply inv_gil; [assumption|discriminate].
    - destruct (c_detach c); [discriminate|]. injection E as <-. apply inv_gil; [assumption|discriminate].
  Qed.
  Lemma inv_path s0 programs m m' : Forall (Forall honest) programs -> path prefer m m' -> inv s0 programs m -> inv s0 programs m'.
  Proof. intros H P. induction P as [|m m' m'' St P IH]; [auto|]. intros I. apply IH. destruct St; [eapply inv_go|eapply inv_yield]; eassumption. Qed.
  Lemma inv_reach s0 programs m : Forall (Forall honest) programs -> reach prefer s0 programs m -> inv s0 programs m.
  Proof. intros H P. eapply inv_path; [exact H|exact P|apply inv_start]. Qed.
End locks.
