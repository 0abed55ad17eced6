(** C104: trainers made from Python mean what their arguments say, and survive pickling. *)
From Coq Require Import ZArith String Permutation.
From Verif Require Import Base StrBytes AMap AddedModel PySettingsModel ModelFilesModel ComponentFilesModel PyModelModel PyTrainerModel PyTrainerSpec PyTrainerProofs PyTrainerProofs2.

Lemma defaults_are kd : pt0 kd = defaults kd.
Proof. destruct kd; reflexivity. Qed.

(** A trainer that a constructor returns is the one its arguments describe, and of the
    [AddedToken] objects of the program the ones given were made special, and nothing
    else changed. *)
Theorem C104_new kd st kw st' c :
  NoDup (map fst kw) -> trainer_new kd st kw = (st', Ok c) -> trainer_says true kd st kw (defaults kd) c /\ marked (listed kw) st st'.
Proof. rewrite <- defaults_are. intros ND E. destruct (proj1 (settings_say kd kw st (pt0 kd) st' c ND) E) as [S M]. split; [exact (exact_says _ _ _ _ _ _ S)|exact M]. Qed.

(** It returns one as soon as the arguments have a meaning; it never panics. *)
Theorem C104_accepts kd st kw c :
  NoDup (map fst kw) -> trainer_says true kd st kw (defaults kd) c -> exists st' c', trainer_new kd st kw = (st', Ok c').
Proof.
  rewrite <- defaults_are. intros ND S. destruct (says_exact _ _ _ _ _ _ S) as (al & X). destruct (marked_exists (listed kw) st) as (st' & M). exists st', (with_alphabet c al).
  apply (proj2 (settings_say kd kw st (pt0 kd) st' _ ND)). split; [exact X|exact M].
Qed.

(** When it raises, the arguments have no meaning, and the objects changed are those of a
    first part of the list of special tokens. *)
Theorem C104_raises kd st kw st' r :
  NoDup (map fst kw) -> trainer_new kd st kw = (st', r) -> (forall c, r <> Ok c) ->
  (exists e, r = Err e) /\ (forall c, ~ trainer_says true kd st kw (defaults kd) c) /\ exists l1 l2, listed kw = l1 ++ l2 /\ marked l1 st st'.
Proof.
  intros ND E H. split; [|split].
  - pose proof (settings_calm kd kw st (pt0 kd)) as C. unfold trainer_new in E. rewrite E in C. cbn [snd] in C. destruct r as [c|e|]; [destruct (H c eq_refl)|eauto|congruence].
  - intros c S. destruct (C104_accepts kd st kw c ND S) as (st2 & c2 & E2). rewrite E in E2. injection E2 as _ X. exact (H c2 X).
  - exact (settings_store kd kw st (pt0 kd) st' r ND E).
Qed.

(** The order of the arguments does not matter. *)
Theorem C104_order kd st kw kw' st' c :
  NoDup (map fst kw) -> Permutation kw kw' -> trainer_new kd st kw = (st', Ok c) -> trainer_new kd st kw' = (st', Ok c).
Proof.
  intros ND P E. assert (ND' : NoDup (map fst kw')) by (apply (Permutation_NoDup (Permutation_map fst P)); exact ND).
  assert (AG : forall k, aget str_eqb k kw' = aget str_eqb k kw).
  { intros k. destruct (aget str_eqb k kw) as [a|] eqn:EA.
    - apply (In_aget str_eqb str_eqb_eq); [exact ND'|]. apply (Permutation_in _ P). apply (aget_In str_eqb str_eqb_eq). exact EA.
    - apply (aget_none _ str_eqb_eq) in EA. apply (aget_none _ str_eqb_eq). intros X. apply EA. apply (Permutation_in _ (Permutation_map fst (Permutation_sym P))). exact X. }
  apply (proj2 (settings_say kd kw' st (pt0 kd) st' c ND')).
  destruct (proj1 (settings_say kd kw st (pt0 kd) st' c ND) E) as [S M].
  unfold trainer_says_with, t_says, listed in *. rewrite !AG. split; [exact S|exact M].
Qed.

(** An assignment to an attribute of the class is accepted when the value has a meaning,
    gives it to this attribute and leaves the others. *)
Theorem C104_assign kd st c k v :
  In k (map key (attributes kd)) ->
  (forall st' c', one_setting false kd st c k v = (st', Ok c') -> trainer_says false kd st [(k, v)] c c' /\ marked (listed [(k, v)]) st st') /\
  (forall c', trainer_says false kd st [(k, v)] c c' -> exists st' c'', one_setting false kd st c k v = (st', Ok c'')).
Proof.
  intros IN. split.
  - intros st' c' E. destruct (proj1 (one_says false kd st c k v st' c' (or_introl IN)) E) as [S M]. split; [exact (exact_says _ _ _ _ _ _ S)|exact M].
  - intros c' S. destruct (says_exact _ _ _ _ _ _ S) as (al & X). destruct (marked_exists (listed [(k, v)]) st) as (st' & M). exists st', (with_alphabet c' al).
    apply (proj2 (one_says false kd st c k v st' _ (or_introl IN))). split; [exact X|exact M].
Qed.

(** A name that is not an attribute of the class cannot be assigned to, and in a
    constructor it is ignored. *)
Theorem C104_unknown kd st c k v :
  ~ In k (map key (attributes kd)) ->
  one_setting true kd st c k v = (st, Ok c) /\ exists e, one_setting false kd st c k v = (st, Err e).
Proof.
  intros NI. assert (ES : str_eqb k (key "special_tokens") = false).
  { destruct (str_eqb k (key "special_tokens")) eqn:E; [|reflexivity]. apply str_eqb_eq in E. subst k. exfalso. apply NI, in_map. destruct kd; cbn; tauto. }
  assert (HF : has_field kd k = false).
  { destruct (has_field kd k) eqn:E; [|reflexivity]. exfalso. rewrite field_keys in E. apply existsb_exists in E as (x & A & B). apply filter_In in A as [A _]. apply str_eqb_eq in B. subst k. apply NI, in_map. exact A. }
  unfold one_setting. rewrite ES, HF. eauto.
Qed.

(** Any history of assignments, each in a [try], does what they mean one after the
    other. *)
Theorem C104_assigns kd l : forall st c, assigned kd st c l (fst (assigns kd st c l)) (snd (assigns kd st c l)).
Proof.
  induction l as [|[k v] l IH]; intros st c; cbn [assigns]; [constructor|].
  destruct (one_setting false kd st c k v) as [st1 r1] eqn:E.
  destruct (in_dec (list_eq_dec N.eq_dec) k (map key (attributes kd))) as [IN|NI].
  - destruct (C104_assign kd st c k v IN) as [A B]. destruct r1 as [c1|e|].
    + destruct (A _ _ E) as [S M]. exact (as_ok kd st c k v l st1 c1 _ _ IN S M (IH st1 c1)).
    + destruct (one_store _ _ _ _ _ _ _ _ E) as (l1 & l2 & L & M). refine (as_refused kd st c k v l st1 _ _ l1 l2 _ L M (IH st1 c)). right. intros c1 S. destruct (B c1 S) as (x & y & X). rewrite E in X. discriminate X.
    + destruct (one_store _ _ _ _ _ _ _ _ E) as (l1 & l2 & L & M). refine (as_refused kd st c k v l st1 _ _ l1 l2 _ L M (IH st1 c)). right. intros c1 S. destruct (B c1 S) as (x & y & X). rewrite E in X. discriminate X.
  - destruct (one_store _ _ _ _ _ _ _ _ E) as (l1 & l2 & L & M). destruct (C104_unknown kd st c k v NI) as [_ (e & X)]. rewrite E in X. injection X as -> ->.
    exact (as_refused kd st c k v l st _ _ l1 l2 (or_introl NI) L M (IH st c)).
Qed.

(** Every trainer made by a constructor and changed by any assignments is sound. *)
Theorem C104_history kd st kw st' c l :
  NoDup (map fst kw) -> trainer_new kd st kw = (st', Ok c) -> sound kd (snd (assigns kd st' c l)) /\ pt_words (snd (assigns kd st' c l)) = [].
Proof.
  intros ND E. destruct (C104_new kd st kw st' c ND E) as [S _]. split.
  - apply assigns_sound. rewrite <- defaults_are in S. exact (says_sound _ _ _ _ _ _ (sound0 kd) S).
  - assert (W0 : pt_words c = []) by (destruct S as (_ & _ & _ & _ & _ & _ & _ & _ & _ & _ & X); exact X). clear E S ND. revert st' c W0.
    induction l as [|[k v] l IH]; intros st1 c W0; cbn [assigns]; [exact W0|]. destruct (one_setting false kd st1 c k v) as [st2 [c2|e|]] eqn:E; apply IH; try exact W0.
    destruct (in_dec (list_eq_dec N.eq_dec) k (map key (attributes kd))) as [IN|NI].
    + destruct (C104_assign kd st1 c k v IN) as [A _]. destruct (A _ _ E) as [(_ & _ & _ & _ & _ & _ & _ & _ & _ & _ & X) _]. rewrite X. exact W0.
    + destruct (C104_unknown kd st1 c k v NI) as [_ (e & X)]. rewrite X in E. discriminate.
Qed.

(** Assigning to an attribute the value it gives changes neither the trainer nor an
    object. *)
Theorem C104_reassign kd st c k st1 v :
  sound kd c -> In k (map key (attributes kd)) -> get_attr st c k = (st1, v) -> one_setting false kd st1 c k v = (st1, Ok c).
Proof. apply reassigned. Qed.

(** A getter only adds objects. *)
Theorem C104_get st c k st1 v : get_attr st c k = (st1, v) -> exists new, st1 = st ++ new.
Proof. unfold get_attr. destruct (str_eqb k (key "special_tokens")); intros E; injection E as <- _; [eauto|exists []; symmetry; apply app_nil_r]. Qed.

(** A pickled trainer is read back as it was, with the words it was fed, whatever object
    of its class it is restored in. *)
Theorem C104_pickle {W} kd c : storable kd c -> trainer_of_state (W := W) (trainer_state kd c) = Ok (kd, c).
Proof. intros (S & ND & F). apply state_back; assumption. Qed.
Theorem C104_restore {W} kd c o : storable kd c -> to_class o = kd -> obj_set_state (W := W) o (trainer_state kd c) = Ok (mkTO kd kd c).
Proof. intros S <-. unfold obj_set_state. rewrite (C104_pickle _ _ S). reflexivity. Qed.

(** Under any history of assignments, reads and restored pickles of its class, an object
    holds a trainer of its class that a pickle can hold, and no attribute panics. *)
Theorem C104_objects {W} kd : forall (l : list (trainer_use (W := W))) st c, storable kd c -> Forall (fair kd) l ->
  exists st' c', use_trainers st (mkTO kd kd c) l = (st', mkTO kd kd c') /\ storable kd c' /\
    (forall k, snd (obj_get st' (mkTO kd kd c') k) = Ok (snd (get_attr st' c' k))) /\
    (forall k v, snd (obj_assign st' (mkTO kd kd c') k v) <> Panic).
Proof.
  assert (SK : same_kind kd kd = true) by (destruct kd; reflexivity).
  induction l as [|u l IH]; intros st c S F.
  - exists st, c. split; [reflexivity|]. split; [exact S|]. split.
    + intros k. unfold obj_get. cbn [to_class to_kind to_trainer]. rewrite SK. destruct (get_attr st c k). reflexivity.
    + intros k v. unfold obj_assign. cbn [to_class to_kind to_trainer]. rewrite SK. pose proof (one_calm false kd st c k v) as H. destruct (one_setting false kd st c k v) as [st1 r1]. cbn [snd] in *. destruct r1; cbn [bind]; congruence.
  - inversion F as [|? ? F1 F2]; subst. cbn [use_trainers]. destruct u as [k v|k|j]; cbn [use_trainer].
    + assert (OA : obj_assign st (mkTO kd kd c) k v = let '(st', r) := one_setting false kd st c k v in (st', let! c := r in Ok (mkTO kd kd c))) by (unfold obj_assign; cbn [to_class to_kind to_trainer]; rewrite SK; reflexivity).
      rewrite OA. clear OA. destruct (one_setting false kd st c k v) as [st1 [c1|e|]] eqn:E; cbn [bind].
      * apply IH; [|exact F2]. destruct S as (S & ND & FW). split; [exact (one_sound _ _ _ _ _ _ _ S E)|].
        assert (X : pt_words c1 = pt_words c).
        { destruct (in_dec (list_eq_dec N.eq_dec) k (map key (attributes kd))) as [IN|NI].
          - destruct (C104_assign kd st c k v IN) as [A _]. destruct (A _ _ E) as [(_ & _ & _ & _ & _ & _ & _ & _ & _ & _ & X) _]. exact X.
          - destruct (C104_unknown kd st c k v NI) as [_ (e & X)]. rewrite X in E. discriminate. }
        rewrite X. tauto.
      * apply IH; assumption.
      * apply IH; assumption.
    + apply IH; assumption.
    + destruct F1 as (c1 & S1 & ->). rewrite (C104_restore kd c1 (mkTO kd kd c) S1 eq_refl). apply IH; assumption.
Qed.

(** An assignment to an attribute of such an object is accepted exactly when the name is one
    of its class and the value has a meaning, and does what C104_assign says. *)
Theorem C104_object_assign kd st c k v :
  (forall st' o, obj_assign st (mkTO kd kd c) k v = (st', Ok o) ->
     In k (map key (attributes kd)) /\ marked (listed [(k, v)]) st st' /\ exists c', o = mkTO kd kd c' /\ trainer_says false kd st [(k, v)] c c') /\
  (forall c', In k (map key (attributes kd)) -> trainer_says false kd st [(k, v)] c c' -> exists st' o, obj_assign st (mkTO kd kd c) k v = (st', Ok o)).
Proof.
  assert (SK : same_kind kd kd = true) by (destruct kd; reflexivity).
  assert (OA : obj_assign st (mkTO kd kd c) k v = let '(st', r) := one_setting false kd st c k v in (st', let! c := r in Ok (mkTO kd kd c))) by (unfold obj_assign; cbn [to_class to_kind to_trainer]; rewrite SK; reflexivity).
  rewrite OA. split.
  - intros st' o. destruct (one_setting false kd st c k v) as [st1 [c1|e|]] eqn:E; cbn [bind]; intros X; try (apply (f_equal snd) in X; discriminate X). injection X as <- <-.
    destruct (in_dec (list_eq_dec N.eq_dec) k (map key (attributes kd))) as [IN|NI].
    + destruct (C104_assign kd st c k v IN) as [A _]. destruct (A _ _ E) as [S M]. split; [exact IN|]. split; [exact M|]. exists c1. split; [reflexivity|exact S].
    + destruct (C104_unknown kd st c k v NI) as [_ (e & X)]. rewrite X in E. discriminate.
  - intros c' IN S. destruct (C104_assign kd st c k v IN) as [_ B]. destruct (B c' S) as (st' & c'' & E). rewrite E. cbn [bind]. exists st', (mkTO kd kd c''). reflexivity.
Qed.

(** ** What does not hold *)
Definition my_token : py_token := token_from (key "<a>") false.
(** A call that raises can have changed an object of the user: it is special now, and no
    longer matched on the normalized text. *)
Theorem C104_marks_refuted : exists kd st kw st' e,
  trainer_new kd st kw = (st', Err e) /\ st' <> st /\
  map (fun p => (at_special (get_token p), at_normalized (get_token p))) st = [(false, true)] /\
  map (fun p => (at_special (get_token p), at_normalized (get_token p))) st' = [(true, false)].
Proof.
  exists KBpe, [my_token], [(key "special_tokens", TList [EToken 0; EOther])], [as_special my_token], PType.
  split; [vm_compute; reflexivity|]. split; [intros X; apply (f_equal (map pt_special)) in X; discriminate X|]. split; vm_compute; reflexivity.
Qed.

(** The values that the attributes of a new trainer give are not all accepted by the
    constructor: those that are None. *)
Theorem C104_none_refuted : exists st c v k,
  trainer_new KBpe st [] = (st, Ok c) /\ get_attr st c k = (st, v) /\ In k (map key (attributes KBpe)) /\ trainer_new KBpe st [(k, v)] = (st, Err PType).
Proof.
  exists [], (pt0 KBpe), TNone, (key "limit_alphabet"). split; [reflexivity|]. split; [reflexivity|]. split; [apply in_map; cbn; tauto|vm_compute; reflexivity].
Qed.

(** The constructor takes the first characters of the texts of an alphabet, which the
    attribute refuses. *)
Theorem C104_alphabet_refuted : exists v c,
  trainer_new KBpe [] [(key "initial_alphabet", v)] = ([], Ok c) /\ pt_alphabet c = key "a" /\
  one_setting false KBpe [] c (key "initial_alphabet") v = ([], Err PType).
Proof.
  exists (TList [EText (key "abc"); EText []]). eexists. split; [vm_compute; reflexivity|]. split; vm_compute; reflexivity.
Qed.

(** A format that does not exist is taken for the default one. *)
Theorem C104_format_refuted : exists c,
  trainer_new KBpe [] [(key "progress_format", TStr (key "JSON"))] = ([], Ok c) /\ pt_format c = Indicatif.
Proof. eexists. split; [vm_compute; reflexivity|reflexivity]. Qed.

(** The argument [words] of the documented signature is ignored. *)
Theorem C104_words_refuted : exists v, trainer_new KBpe [] [(key "words", v)] = trainer_new KBpe [] [].
Proof. exists TObject. vm_compute. reflexivity. Qed.

(** [__setstate__] with the pickle of a trainer of another class is accepted; reading an
    attribute then panics and assigning to one does nothing. *)
Theorem C104_state_refuted {W} : exists o j o',
  to_kind o = to_class o /\ obj_set_state (W := W) o j = Ok o' /\
  obj_get [] o' (key "vocab_size") = ([], Panic) /\ obj_assign [] o' (key "vocab_size") (TInt 5) = ([], Ok o').
Proof.
  exists (mkTO KBpe KBpe (pt0 KBpe)), (trainer_state KWordPiece (pt0 KWordPiece)), (mkTO KBpe KWordPiece (pt0 KWordPiece)).
  split; [reflexivity|]. split; [vm_compute; reflexivity|]. split; vm_compute; reflexivity.
Qed.

(** ** A trainer *)
Example C104_example : exists st' c,
  trainer_new KWordPiece [my_token; my_token] [(key "vocab_size", TInt 100); (key "special_tokens", TList [EText (key "[UNK]"); EToken 1]); (key "initial_alphabet", TTuple [EText (key "ab"); EText (key "a")]); (key "max_token_length", TInt 3)] = (st', Ok c) /\
  st' = [my_token; as_special my_token] /\ pt_vocab c = 100%N /\ pt_prefix c = Some (key "##") /\ pt_alphabet c = key "a" /\ pt_max c = None /\
  map at_content (pt_tokens c) = [key "[UNK]"; key "<a>"] /\ map at_normalized (pt_tokens c) = [false; false] /\
  trainer_of_state (W := unit) (trainer_state KWordPiece c) = Ok (KWordPiece, c) /\
  snd (assigns KWordPiece st' c [(key "vocab_size", TInt (-1)); (key "vocab_size", TInt 7); (key "max_token_length", TInt 3)]) =
    mkPT 0 7 true Indicatif (pt_tokens c) None (key "a") (Some (key "##")) None None [].
Proof. eexists. eexists. split; [vm_compute; reflexivity|]. repeat match goal with |- _ /\ _ => split end; vm_compute; reflexivity. Qed.
