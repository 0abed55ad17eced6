(** C88: components that Python objects and tokenizers share. *)
From Verif Require Import Base PyShareModel PyShareSpec PyShareProofs.

Section claims.
  Context {A C X E : Type}.
  Variables (act : nat -> A -> X -> res E X) (call : C -> X -> res E X).
  Variable lone : bool.
  Notation step := (@step A C lone).
  Notation run := (@run A C lone).
  Notation use_obj := (use_obj act call).
  Notation use_tok := (use_tok act call).
  Implicit Types (w : world A C) (cs : list (op A C)).

  (** After [t.normalizer = o] the tokenizer does what the object does, whatever is done to
      the object or to others later, until [t.normalizer] is assigned again. *)
  Theorem C88_assigned w t o w1 cs w2 : reachable lone w -> step w (OAssign t (Some o)) = (w1, Done) -> no_assign t cs -> run w1 cs = Some w2 ->
    forall x, use_tok w2 t x = use_obj w2 o x.
  Proof.
    intros RE H NA R x. apply reachable_sound in RE. pose proof (step_facts _ _ _ _ _ RE H) as F. cbn [PyShareModel.step] in H.
    destruct (nth_error (toks w) t) as [k|] eqn:T; [|discriminate]. destruct (nth_error (objs w) o) as [b|] eqn:O; [|discriminate]. injection H as <-.
    assert (T1 : nth_error (toks (mkWorld (cells w) (objs w) (set_tok (toks w) t (Some (ob_comp b))))) t = Some (Some (ob_comp b))) by (apply change_same; exact (nth_lt _ _ _ T)).
    pose proof (tok_stays _ _ _ _ _ _ (f_sound _ _ _ F) NA R T1) as T2. pose proof (obj_stays _ _ _ _ _ _ (f_sound _ _ _ F) R O) as O2.
    unfold PyShareModel.use_tok, PyShareModel.use_obj. rewrite T2, O2. reflexivity.
  Qed.
  (** The object that [t.normalizer] gives is the one in use, not a copy. *)
  Theorem C88_read w t w1 cs w2 : reachable lone w -> step w (ORead t) = (w1, Done) -> no_assign t cs -> run w1 cs = Some w2 ->
    forall x, use_obj w2 (next_obj w) x = use_tok w2 t x.
  Proof.
    intros RE H NA R x. apply reachable_sound in RE. pose proof (step_facts _ _ _ _ _ RE H) as F. cbn [PyShareModel.step] in H.
    destruct (nth_error (toks w) t) as [[k|]|] eqn:T; try discriminate. destruct (subtype (cells w) k) as [b|] eqn:B; [|discriminate]. unfold add_obj in H. injection H as <-.
    pose proof (tok_stays _ (mkWorld (cells w) (objs w ++ [b]) (toks w)) _ _ _ _ (f_sound _ _ _ F) NA R T) as T2.
    pose proof (obj_stays _ (mkWorld (cells w) (objs w ++ [b]) (toks w)) _ _ (next_obj w) b (f_sound _ _ _ F) R (nth_last _ _)) as O2.
    unfold PyShareModel.use_tok, PyShareModel.use_obj. rewrite T2, O2, (subtype_comp _ _ _ B). reflexivity.
  Qed.
  (** [Sequence([..])] does what its members do, one after the other, also after later changes of the
      members. *)
  Theorem C88_sequence w l w1 cs w2 : reachable lone w -> step w (OSeq l) = (w1, Done) -> run w1 cs = Some w2 ->
    forall x, use_obj w2 (next_obj w) x = composed (map (use_obj w2) l) x.
  Proof.
    intros RE H R x. apply reachable_sound in RE. pose proof (step_facts _ _ _ _ _ RE H) as F. cbn [PyShareModel.step] in H.
    destruct (members (objs w) l) as [m|] eqn:M; [|discriminate]. unfold add_obj in H. injection H as <-.
    set (b := mkObj ClSeq (Many m)) in *. pose proof (obj_stays _ (mkWorld (cells w) (objs w ++ [b]) (toks w)) _ _ (next_obj w) b (f_sound _ _ _ F) R (nth_last _ _)) as O2.
    assert (M2 : members (objs w2) l = Some m).
    { apply (members_stays (objs w)); [exact M|]. intros o b' O. refine (obj_stays _ _ _ _ _ _ (f_sound _ _ _ F) R _). apply nth_app. exact O. }
    rewrite <- (members_composed _ _ _ _ _ _ M2). unfold PyShareModel.use_obj. rewrite O2. apply comp_composed.
  Qed.
  (** [o[i]] is the [i]-th part of the sequence itself: all of them, taken in order, do what the sequence
      does, at any later time.  Beyond the end there is nothing. *)
  Theorem C88_items w o cs w2 n : reachable lone w -> is_obj w o -> (exists l, nth_error (objs w) o = Some (mkObj ClSeq (Many l)) /\ n = List.length l) ->
    (forall i, snd (step w (OItem o i)) = Done <-> i < n) /\
    (exists w1, run w (map (OItem o) (seq 0 n)) = Some w1 /\ next_obj w1 = next_obj w + n /\
       (run w1 cs = Some w2 -> forall x, use_obj w2 o x = composed (map (use_obj w2) (seq (next_obj w) n)) x)).
  Proof.
    intros RE _ (l & O & ->). apply reachable_sound in RE. pose proof (proj1 RE _ _ O) as I. cbn [ob_comp cells_of] in I.
    assert (ST : forall w', cells w' = cells w -> nth_error (objs w') o = Some (mkObj ClSeq (Many l)) -> forall i a, nth_error l i = Some a ->
              exists b, ob_comp b = One a /\ step w' (OItem o i) = (mkWorld (cells w) (objs w' ++ [b]) (toks w'), Done)).
    { intros w' CE O' i a Hi. cbn [PyShareModel.step]. rewrite O', Hi. unfold inside in I. rewrite Forall_forall in I. pose proof (I _ (nth_error_In _ _ Hi)) as L.
      destruct (subtype (cells w') (One a)) as [b|] eqn:B.
      - exists b. split; [exact (subtype_comp _ _ _ B)|]. unfold add_obj. rewrite CE. reflexivity.
      - exfalso. cbn [subtype] in B. rewrite CE in B. destruct (nth_error (cells w) a) eqn:N; [discriminate|]. apply nth_error_None in N. lia. }
    split.
    - intros i. destruct (nth_error l i) as [a|] eqn:Hi.
      + destruct (ST w eq_refl O i a Hi) as (b & _ & ->). cbn. split; [intros _; exact (nth_lt _ _ _ Hi)|reflexivity].
      + cbn [PyShareModel.step]. rewrite O, Hi. cbn. split; [discriminate|]. intros L. apply nth_error_None in Hi. lia.
    - assert (K : forall m l2 l1 w', l = l1 ++ l2 -> m = List.length l2 -> sound w' -> cells w' = cells w -> nth_error (objs w') o = Some (mkObj ClSeq (Many l)) ->
        exists w1 bs, run w' (map (OItem o) (seq (List.length l1) m)) = Some w1 /\ objs w1 = objs w' ++ bs /\ map ob_comp bs = map One l2 /\ sound w1).
      { intros m l2. revert m. induction l2 as [|a l2 IH]; intros m l1 w' E0 -> S' CE O'.
        - exists w', []. rewrite app_nil_r. cbn. auto.
        - assert (Hi : nth_error l (List.length l1) = Some a) by (rewrite E0, nth_error_app2, Nat.sub_diag by lia; reflexivity).
          destruct (ST w' CE O' _ _ Hi) as (b & B & St). pose proof (f_sound _ _ _ (step_facts _ _ _ _ _ S' St)) as S1.
          assert (O1 : nth_error (objs w' ++ [b]) o = Some (mkObj ClSeq (Many l))) by (apply nth_app; exact O').
          destruct (IH _ (l1 ++ [a]) (mkWorld (cells w) (objs w' ++ [b]) (toks w')) ltac:(rewrite <- app_assoc; exact E0) eq_refl S1 eq_refl O1) as (w1 & bs & R & OB & MB & SS).
          exists w1, (b :: bs). cbn [List.length seq map PyShareModel.run]. rewrite St. rewrite app_length, Nat.add_1_r in R. split; [exact R|]. rewrite OB. cbn [objs map]. rewrite <- app_assoc, MB, B. auto. }
      destruct (K _ l [] w eq_refl eq_refl RE eq_refl O) as (w1 & bs & R & OB & MB & S1). exists w1. split; [exact R|].
      assert (LB : List.length bs = List.length l) by (rewrite <- (map_length ob_comp), MB, map_length; reflexivity).
      split; [unfold next_obj; rewrite OB, app_length, LB; reflexivity|]. intros R2 x.
      assert (O2 : nth_error (objs w2) o = Some (mkObj ClSeq (Many l))) by (apply (obj_stays lone w1 cs); [exact S1|exact R2|rewrite OB; apply nth_app; exact O]).
      assert (U : use_obj w2 o x = apply_cells act call (cells w2) l x) by (unfold PyShareModel.use_obj; rewrite O2; reflexivity). rewrite U, apply_cells_composed.
      apply composed_ext. unfold next_obj. assert (BS : forall i b, nth_error bs i = Some b -> nth_error (objs w2) (List.length (objs w) + i) = Some b).
      { intros i b Hb. apply (obj_stays lone w1 cs); [exact S1|exact R2|]. rewrite OB, nth_error_app2 by lia. rewrite Nat.add_comm, Nat.add_sub. exact Hb. }
      clear - MB LB BS. revert bs MB LB BS. generalize (List.length (objs w)). induction l as [|a l IH]; intros n bs MB LB BS; [constructor|].
      destruct bs as [|b bs]; [discriminate|]. cbn [map] in MB. injection MB as B MB. cbn [List.length seq map]. constructor.
      + intros y. unfold PyShareModel.use_obj. rewrite <- (Nat.add_0_r n), (BS 0 b eq_refl), B. reflexivity.
      + apply (IH (Datatypes.S n) bs MB); [cbn in LB; lia|]. intros i b' Hb. rewrite Nat.add_succ_l, <- Nat.add_succ_r. apply BS. exact Hb.
  Qed.

  (** What a call does to what existed before: nothing, except to things that have the part
      that the call changes (and to a tokenizer that is assigned to). *)
  Theorem C88_frame w c w' e : reachable lone w -> step w c = (w', e) ->
    (forall o, is_obj w o -> (forall a, changes w c a -> ~ In a (obj_parts w o)) -> (forall x, use_obj w' o x = use_obj w o x) /\ attr w' o = attr w o) /\
    (forall t, is_tok w t -> (forall o, c <> OAssign t o) -> (forall a, changes w c a -> ~ In a (tok_parts w t)) -> forall x, use_tok w' t x = use_tok w t x).
  Proof.
    intros RE H. apply reachable_sound in RE. pose proof (step_facts _ _ _ _ _ RE H) as F. split.
    - intros o L N. unfold is_obj, obj_parts in *. destruct (nth_error (objs w) o) as [b|] eqn:O; [|apply nth_error_None in O; lia].
      assert (O' : nth_error (objs w') o = Some b) by (destruct (f_objs _ _ _ F) as [l ->]; apply nth_app; exact O).
      assert (CE : forall a, In a (cells_of (ob_comp b)) -> nth_error (cells w') a = nth_error (cells w) a).
      { intros a Ia. apply (f_cells _ _ _ F); [|intros K; exact (N _ K Ia)]. pose proof (proj1 RE _ _ O) as I. unfold inside in I. rewrite Forall_forall in I. exact (I _ Ia). }
      split.
      + intros x. unfold PyShareModel.use_obj. rewrite O, O', !comp_composed. apply composed_parts. exact CE.
      + unfold attr. rewrite O, O'. destruct b as [[| |] [a|l]]; try reflexivity. rewrite (CE a) by (left; reflexivity). reflexivity.
    - intros t L NA N x. unfold PyShareModel.use_tok, tok_parts in *. rewrite (f_toks _ _ _ F _ L NA). destruct (nth_error (toks w) t) as [[k|]|] eqn:T; try reflexivity.
      rewrite !comp_composed. apply composed_parts. intros a Ia. apply (f_cells _ _ _ F); [|intros K; exact (N _ K Ia)].
      pose proof (proj2 RE _ _ T) as I. unfold inside in I. rewrite Forall_forall in I. exact (I _ Ia).
  Qed.
  (** Setting an attribute: the object has it, and so has every object for the same part. *)
  Theorem C88_set w o f y : reachable lone w -> attr w o = Ok y ->
    exists w', step w (OSet o f) = (w', Done) /\ attr w' o = Ok (f y) /\
      (forall p, obj_parts w p = obj_parts w o -> attr w' p = match attr w p with Ok _ => Ok (f y) | r => r end).
  Proof.
    intros RE H. apply reachable_sound in RE. unfold attr in H. destruct (nth_error (objs w) o) as [[[| |k] [a|l]]|] eqn:O; try discriminate.
    destruct (nth_error (cells w) a) as [[k' z| |]|] eqn:V; try discriminate. destruct (Nat.eqb_spec k k') as [<-|]; [|discriminate]. injection H as ->.
    exists (mkWorld (put (cells w) a (Plain k (f y))) (objs w) (toks w)). cbn [PyShareModel.step]. rewrite O, V, Nat.eqb_refl. split; [reflexivity|].
    assert (SA : nth_error (put (cells w) a (Plain k (f y))) a = Some (Plain k (f y))) by (apply (change_same (cells w)); exact (nth_lt _ _ _ V)).
    split; [unfold attr; cbn [objs cells]; rewrite O, SA, Nat.eqb_refl; reflexivity|].
    intros p Q. unfold obj_parts in Q. rewrite O in Q. unfold attr. cbn [objs cells]. destruct (nth_error (objs w) p) as [[[| |m] [b|l]]|]; try reflexivity.
    cbn in Q. injection Q as ->. rewrite SA, V. destruct (Nat.eqb m k); reflexivity.
  Qed.
  (** [o[i] = p] copies: afterwards the [i]-th part does what [p] does, [p] is as before, and if the parts
      of [o] are different ones, the others are. *)
  Theorem C88_setitem w o i p w' : reachable lone w -> step w (OSetItem o i p) = (w', Done) ->
    (forall x, use_obj w' p x = use_obj w p x) /\
    (forall a, nth_error (obj_parts w o) i = Some a -> forall x, part_use act call w' a x = use_obj w p x) /\
    (NoDup (obj_parts w o) -> forall x, use_obj w' o x =
       composed (map (part_use act call w) (firstn i (obj_parts w o)) ++ use_obj w p :: map (part_use act call w) (skipn (Datatypes.S i) (obj_parts w o))) x).
  Proof.
    intros RE H. apply reachable_sound in RE. cbn [PyShareModel.step] in H.
    destruct (nth_error (objs w) p) as [[k [b|l]]|] eqn:P; try discriminate. destruct (nth_error (objs w) o) as [[[| |] [a|l]]|] eqn:O; try discriminate.
    destruct (nth_error l i) as [a|] eqn:I; [|discriminate]. destruct (Nat.eqb_spec a b) as [|D]; [discriminate|]. destruct (nth_error (cells w) b) as [v|] eqn:V; [|discriminate]. injection H as <-.
    change (put (cells w) a v) with (change (cells w) a v) in *. set (w' := mkWorld (change (cells w) a v) (objs w) (toks w)).
    assert (OT : forall c, c <> a -> nth_error (cells w') c = nth_error (cells w) c) by (intros c N; apply change_other; congruence).
    assert (LA : a < List.length (cells w)) by (pose proof (proj1 RE _ _ O) as F; cbn in F; unfold inside in F; rewrite Forall_forall in F; exact (F _ (nth_error_In _ _ I))).
    assert (UP : forall x, use_obj w p x = apply act call v x) by (intros x; unfold PyShareModel.use_obj; rewrite P; cbn [ob_comp apply_comp]; unfold apply_cell; rewrite V; reflexivity).
    assert (PA : forall x, part_use act call w' a x = use_obj w p x) by (intros x; rewrite UP; unfold part_use, apply_cell; cbn [cells w']; rewrite change_same by exact LA; reflexivity).
    split; [|split].
    - intros x. unfold PyShareModel.use_obj. change (objs w') with (objs w). rewrite P. cbn [ob_comp apply_comp]. unfold apply_cell. rewrite OT by congruence. reflexivity.
    - unfold obj_parts. rewrite O. cbn [ob_comp cells_of]. intros a' H. rewrite I in H. injection H as <-. exact PA.
    - unfold obj_parts. rewrite O. cbn [ob_comp cells_of]. intros ND x. assert (U : use_obj w' o x = apply_cells act call (cells w') l x) by (unfold PyShareModel.use_obj; change (objs w') with (objs w); rewrite O; reflexivity).
      rewrite U, apply_cells_composed. apply composed_ext. destruct (nth_error_split l i I) as (l1 & l2 & -> & <-). rewrite firstn_app, firstn_all, Nat.sub_diag. cbn [firstn]. rewrite app_nil_r.
      assert (SK : skipn (Datatypes.S (List.length l1)) (l1 ++ a :: l2) = l2) by (rewrite skipn_app, (skipn_all2 l1) by lia; rewrite Nat.sub_succ_l, Nat.sub_diag by lia; reflexivity).
      rewrite SK, map_app. cbn [map]. apply NoDup_remove_2 in ND. rewrite in_app_iff in ND.
      assert (SAME : forall l, ~ In a l -> Forall2 (fun f g : X -> res E X => forall x, f x = g x) (map (part_use act call w') l) (map (part_use act call w) l)).
      { induction l as [|c l IH]; intros N; [constructor|]. constructor; [|apply IH; intros J; apply N; right; exact J]. apply part_use_eq. apply OT. intros ->. apply N. left. reflexivity. }
      apply Forall2_app; [apply SAME; tauto|]. constructor; [exact PA|]. apply SAME. tauto.
  Qed.
  (** It hangs exactly when [p] is that very part. *)
  Theorem C88_hang w c : snd (step w c) = Hung <->
    exists o i p a, c = OSetItem o i p /\ (exists l, nth_error (objs w) o = Some (mkObj ClSeq (Many l)) /\ nth_error l i = Some a) /\ (exists k, nth_error (objs w) p = Some (mkObj k (One a))).
  Proof.
    split.
    - intros H. destruct c; cbn [PyShareModel.step] in H; unfold add_obj in H.
      + discriminate.
      + discriminate.
      + destruct (members (objs w) l); discriminate.
      + destruct (nth_error (objs w) o) as [[[| |] [a|l]]|]; try discriminate.
        * destruct lone; [|discriminate]. destruct (subtype (cells w) (One a)); discriminate.
        * destruct (nth_error l i) as [a|]; [|discriminate]. destruct (subtype (cells w) (One a)); discriminate.
      + destruct (nth_error (objs w) p) as [[k [b|l]]|] eqn:P; try discriminate. destruct (nth_error (objs w) o) as [[[| |] [a|l]]|] eqn:O; try discriminate.
        destruct (nth_error l i) as [a|] eqn:I; [|discriminate]. destruct (Nat.eqb_spec a b) as [->|D].
        * exists o, i, p, b. split; [reflexivity|]. split; [exists l; split; [exact O|exact I]|exists k; exact P].
        * destruct (nth_error (cells w) b); discriminate.
      + destruct (nth_error (objs w) o) as [[[| |] [a|l]]|]; try discriminate. destruct (nth_error (cells w) a) as [[k' x| |]|]; discriminate.
      + destruct (load (cells w) v) as [h' k]. destruct (subtype h' k); discriminate.
      + destruct (nth_error (objs w) o) as [b|]; [|discriminate]. destruct (document (cells w) (ob_comp b)) as [v|]; [|discriminate]. destruct (load (cells w) v); discriminate.
      + discriminate.
      + destruct o as [o|]; destruct (nth_error (toks w) t); try discriminate. destruct (nth_error (objs w) o); discriminate.
      + destruct (nth_error (toks w) t) as [[k|]|]; try discriminate. destruct (subtype (cells w) k); discriminate.
      + destruct (nth_error (toks w) t) as [[k|]|]; try discriminate. destruct (document (cells w) k) as [v|]; [|discriminate]. destruct (load (cells w) v); discriminate.
    - intros (o & i & p & a & -> & (l & O & I) & (k & P)). cbn [PyShareModel.step]. rewrite P, O, I, Nat.eqb_refl. reflexivity.
  Qed.
  (** In a program that assigns no items no call hangs, and attributes can be read: an object has
      them unless its class has none. *)
  Theorem C88_plain cs : no_setitem cs -> exists w, run nothing cs = Some w /\ forall o, attr w o <> Panic.
  Proof.
    intros N. assert (K : forall cs w, no_setitem cs -> sound w -> kinds w -> exists w', run w cs = Some w' /\ kinds w').
    { clear. induction cs as [|c cs IH]; intros w N S K; [exists w; split; [reflexivity|exact K]|]. cbn [PyShareModel.run]. destruct (step w c) as [w1 e] eqn:St.
      assert (NS : forall o i p, c <> OSetItem o i p) by (intros o i p ->; exact (N o i p (or_introl eq_refl))).
      assert (e <> Hung).
      { intros ->. assert (Hc : snd (step w c) = Hung) by (rewrite St; reflexivity). apply C88_hang in Hc. destruct Hc as (o & i & p & a & -> & _). exact (NS o i p eq_refl). }
      destruct (IH w1) as (w' & R & K'); [intros o i p J; exact (N o i p (or_intror J))|exact (f_sound _ _ _ (step_facts _ _ _ _ _ S St))|exact (kinds_step _ _ _ _ _ S K NS St)|].
      exists w'. destruct e; [split; assumption|split; assumption|contradiction]. }
    destruct (K cs nothing N sound_nothing) as (w & R & KI); [intros [|o] k d H; discriminate|]. exists w. split; [exact R|]. intros o H. unfold attr in H.
    destruct (nth_error (objs w) o) as [[[| |k] d]|] eqn:O; try discriminate. destruct (KI _ _ _ O) as (a & x & -> & V). rewrite V, Nat.eqb_refl in H. discriminate.
  Qed.
  (** A copy does what the original does and shares nothing with what exists.  Only things with a
      Python object inside cannot be copied. *)
  Theorem C88_copy w o : reachable lone w -> is_obj w o ->
    ((exists a v, In a (obj_parts w o) /\ nth_error (cells w) a = Some v /\ has_custom v) /\ step w (OCopy o) = (w, Raised)) \/
    (exists w', step w (OCopy o) = (w', Done) /\ is_obj w' (next_obj w) /\ (forall x, use_obj w' (next_obj w) x = use_obj w o x) /\
       (forall p a, is_obj w p -> In a (obj_parts w' (next_obj w)) -> ~ In a (obj_parts w p)) /\ (forall t a, In a (obj_parts w' (next_obj w)) -> ~ In a (tok_parts w t))).
  Proof.
    intros RE L. apply reachable_sound in RE. unfold is_obj in L. cbn [PyShareModel.step]. unfold obj_parts at 1. destruct (nth_error (objs w) o) as [b|] eqn:O; [|apply nth_error_None in O; lia].
    destruct (document (cells w) (ob_comp b)) as [v|] eqn:D; [right|left; split; [|reflexivity]; apply document_none; [exact (proj1 RE _ _ O)|exact D]].
    destruct (load (cells w) v) as [h' k] eqn:LD. eexists. split; [reflexivity|]. unfold next_obj. split; [unfold is_obj; cbn [objs]; rewrite app_length; cbn; lia|].
    assert (PA : forall a, In a (obj_parts (mkWorld h' (objs w ++ [mkObj (ob_class b) k]) (toks w)) (List.length (objs w))) -> List.length (cells w) <= a).
    { intros a. unfold obj_parts. cbn [objs]. rewrite nth_last. cbn [ob_comp]. destruct (load_facts _ _ _ _ LD) as (l & _ & ->). rewrite in_seq. lia. }
    split; [|split].
    - intros x. unfold PyShareModel.use_obj. cbn [objs cells]. rewrite nth_last, O. cbn [ob_comp]. rewrite (load_apply _ _ _ _ _ _ _ LD). apply document_apply. exact D.
    - intros p a _ I J. apply PA in I. unfold obj_parts in J. destruct (nth_error (objs w) p) as [d|] eqn:P; [|contradiction]. pose proof (proj1 RE _ _ P) as F. unfold inside in F. rewrite Forall_forall in F. specialize (F _ J). lia.
    - intros t a I J. apply PA in I. unfold tok_parts in J. destruct (nth_error (toks w) t) as [[d|]|] eqn:P; try contradiction. pose proof (proj2 RE _ _ P) as F. unfold inside in F. rewrite Forall_forall in F. specialize (F _ J). lia.
  Qed.
  Theorem C88_copy_tokenizer w t w' : reachable lone w -> step w (OCopyTok t) = (w', Done) ->
    is_tok w' (next_tok w) /\ (forall x, use_tok w' (next_tok w) x = use_tok w t x) /\ (forall a, In a (tok_parts w' (next_tok w)) -> List.length (cells w) <= a).
  Proof.
    intros RE H. cbn [PyShareModel.step] in H. unfold next_tok, is_tok. destruct (nth_error (toks w) t) as [[k|]|] eqn:T; [| |discriminate].
    - destruct (document (cells w) k) as [v|] eqn:D; [|discriminate]. destruct (load (cells w) v) as [h' k'] eqn:LD. injection H as <-. cbn [toks]. split; [rewrite app_length; cbn; lia|]. split.
      + intros x. unfold PyShareModel.use_tok. cbn [toks cells]. rewrite nth_last, T, (load_apply _ _ _ _ _ _ _ LD). apply document_apply. exact D.
      + intros a. unfold tok_parts. cbn [toks]. rewrite nth_last. destruct (load_facts _ _ _ _ LD) as (l & _ & ->). rewrite in_seq. lia.
    - injection H as <-. cbn [toks]. split; [rewrite app_length; cbn; lia|]. split.
      + intros x. unfold PyShareModel.use_tok. cbn [toks cells]. rewrite nth_last, T. reflexivity.
      + intros a. unfold tok_parts. cbn [toks]. rewrite nth_last. contradiction.
  Qed.
  (** A program that does nothing with what exists but copy it changes none of it. *)
  Theorem C88_apart w cs w' : reachable lone w -> run w cs = Some w' ->
    (forall c, In c cs -> (exists o, c = OCopy o) \/ (exists t, c = OCopyTok t) \/ ((forall o, given_obj c o -> ~ is_obj w o) /\ (forall t, given_tok c t -> ~ is_tok w t))) ->
    (forall o, is_obj w o -> (forall x, use_obj w' o x = use_obj w o x) /\ attr w' o = attr w o) /\ (forall t, is_tok w t -> forall x, use_tok w' t x = use_tok w t x).
  Proof.
    intros RE R AL. apply reachable_sound in RE.
    assert (AP : apart w w').
    { refine (run_ind lone (apart w) cs _ w w' _ R).
      - intros w1 c w2 e I A1 St _. refine (apart_step _ _ _ _ _ _ A1 _ St). destruct (AL _ I) as [[o ->]|[[t ->]|[GO GT]]]; [exact Logic.I|exact Logic.I|].
        assert (K : (forall o, given_obj c o -> List.length (objs w) <= o) /\ (forall t, given_tok c t -> List.length (toks w) <= t)).
        { split; [intros o G; apply Nat.nlt_ge; exact (GO _ G)|intros t G; apply Nat.nlt_ge; exact (GT _ G)]. }
        destruct c; try exact K; exact Logic.I.
      - split; [exact RE|]. split; [exists []; symmetry; apply app_nil_r|]. split; [reflexivity|]. split; [lia|]. split; [lia|]. split; [reflexivity|].
        split; [intros o b L O; apply nth_lt in O; lia|intros t k L T; apply nth_lt in T; lia]. }
    destruct AP as (_ & [l PO] & TO & _ & _ & CE & _ & _). split.
    - intros o L. unfold is_obj in L. destruct (nth_error (objs w) o) as [b|] eqn:O; [|apply nth_error_None in O; lia].
      assert (O' : nth_error (objs w') o = Some b) by (rewrite PO; apply nth_app; exact O).
      assert (CB : forall a, In a (cells_of (ob_comp b)) -> nth_error (cells w') a = nth_error (cells w) a).
      { intros a Ia. apply CE. pose proof (proj1 RE _ _ O) as I. unfold inside in I. rewrite Forall_forall in I. exact (I _ Ia). }
      split.
      + intros x. unfold PyShareModel.use_obj. rewrite O, O', !comp_composed. apply composed_parts. exact CB.
      + unfold attr. rewrite O, O'. destruct b as [[| |] [a|l']]; try reflexivity. rewrite (CB a) by (left; reflexivity). reflexivity.
    - intros t L x. unfold PyShareModel.use_tok. rewrite (TO _ L). destruct (nth_error (toks w) t) as [[k|]|] eqn:T; try reflexivity.
      rewrite !comp_composed. apply composed_parts. intros a Ia. apply CE. pose proof (proj2 RE _ _ T) as I. unfold inside in I. rewrite Forall_forall in I. exact (I _ Ia).
  Qed.
End claims.

(** ** Examples *)
(** Texts are lists of numbers; components of kind 0 prepend their number, those of kind 1
    remove so many. *)
Definition ex_act (k a : nat) (x : list nat) : res unit (list nat) := Ok (match k with 0 => a :: x | _ => skipn a x end).
Definition ex_call (c : unit) (x : list nat) : res unit (list nat) := Ok (rev x).
Definition ex_calls : list (op nat unit) :=
  [ONew 0 7; ONew 1 1; OSeq [0; 1; 0]; OTok; OAssign 0 (Some 2); OSet 0 (fun _ => 5); OItem 2 1; OSet 3 (fun n => n + 1); ORead 0; OCopy 2; OSet 0 (fun _ => 9); OCustom tt; OCopy 6].
Example C88_ex : exists w, run true nothing ex_calls = Some w /\ reachable true w /\
  use_tok ex_act ex_call w 0 [1; 2; 3] = Ok [9; 2; 3] /\ use_obj ex_act ex_call w 2 [1; 2; 3] = Ok [9; 2; 3] /\ use_obj ex_act ex_call w 4 [1; 2; 3] = Ok [9; 2; 3] /\
  use_obj ex_act ex_call w 5 [1; 2; 3] = Ok [5; 2; 3] /\ attr w 1 = Ok 2 /\ attr w 3 = Ok 2 /\ attr w 0 = Ok 9 /\ next_obj w = 7.
Proof. eexists. split; [vm_compute; reflexivity|]. split; [exists ex_calls; vm_compute; reflexivity|]. vm_compute. repeat split. Qed.

(** ** What one might expect and is not so *)
(** [s[0] = s[0]] never returns. *)
Theorem C88_hang_refuted : exists w, reachable (A := nat) (C := unit) true w /\ step true w (OItem 1 0) = (mkWorld (cells w) (objs w ++ [mkObj (ClKind 0) (One 0)]) (toks w), Done) /\
  run true w [OItem 1 0; OSetItem 1 0 2] = None.
Proof. exists (mkWorld [Plain 0 7] [mkObj (ClKind 0) (One 0); mkObj ClSeq (Many [0])] []). split; [exists [ONew 0 7; OSeq [0]]; reflexivity|]. split; reflexivity. Qed.
(** [s[0] = q] changes the object that the sequence was made of into something else: its
    attributes can then not be read (a panic), and setting them does nothing. *)
Theorem C88_class_refuted : exists w, run (A := nat) (C := unit) true nothing [ONew 0 7; OSeq [0]; ONew 1 1; OSetItem 1 0 2] = Some w /\
  use_obj ex_act ex_call w 0 [1; 2; 3] = Ok [2; 3] /\ attr w 0 = Panic /\ step true w (OSet 0 (fun _ => 5)) = (w, Done).
Proof. eexists. split; [reflexivity|]. vm_compute. repeat split. Qed.
(** Setting one item may change two. *)
Theorem C88_twice_refuted : exists w, run (A := nat) (C := unit) true nothing [ONew 0 7; OSeq [0; 0]; ONew 0 8; OSetItem 1 0 2] = Some w /\
  use_obj ex_act ex_call w 1 [1] = Ok [8; 8; 1].
Proof. eexists. split; reflexivity. Qed.
(** A sequence of normalizers that was loaded inside another has an item at every index, so a loop over it does
    not end. *)
Theorem C88_loop_refuted : exists w, run (A := nat) (C := unit) true nothing [OLoad (Nest [Nest [Plain 0 7]]); OItem 0 0] = Some w /\
  forall i, snd (step true w (OItem 1 i)) = Done.
Proof. eexists. split; [reflexivity|]. reflexivity. Qed.
