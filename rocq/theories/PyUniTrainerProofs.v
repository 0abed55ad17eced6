(** Proofs about the constructor of the Unigram trainer. *)
From Coq Require Import ZArith String.
From Verif Require Import Base StrBytes AMap AddedModel PySettingsModel ModelFilesModel PyModelModel PyModelProofs PyTrainerModel PyTrainerSpec PyTrainerProofs PyTrainerProofs2 PyUniTrainerModel PyUniTrainerSpec.

Section uni.
  Context {W : Type} (of_int : Z -> option W).
  Lemma u_nil {T} (M : uval W -> T -> Prop) x d v : u_says M [] x d v <-> v = d.
  Proof. unfold u_says. cbn. tauto. Qed.
  Lemma u_cons {T} (M : uval W -> T -> Prop) k a kw x d v :
    (u_says M ((k, a) :: kw) x d v <-> if str_eqb (key x) k then M a v else u_says M kw x d v).
  Proof. unfold u_says. cbn [aget]. destruct (str_eqb (key x) k); reflexivity. Qed.
  Lemma u_other {T} (M : uval W -> T -> Prop) kw x d v : ~ In (key x) (map fst kw) -> (u_says M kw x d v <-> v = d).
  Proof.
    intros H. unfold u_says. destruct (aget str_eqb (key x) kw) as [a|] eqn:E; [|tauto]. apply (aget_In str_eqb str_eqb_eq) in E. apply (in_map fst) in E. tauto.
  Qed.
  Lemma u_one {T} (M : uval W -> T -> Prop) k a x d v : u_says M [(k, a)] x d v <-> if str_eqb k (key x) then M a v else v = d.
  Proof.
    rewrite u_cons. replace (str_eqb (key x) k) with (str_eqb k (key x)).
    - destruct (str_eqb k (key x)); [reflexivity|apply u_nil].
    - destruct (str_eqb k (key x)) eqn:E; destruct (str_eqb (key x) k) eqn:E'; try reflexivity.
      + apply str_eqb_eq in E. subst k. rewrite str_eqb_refl in E'. discriminate.
      + apply str_eqb_eq in E'. subst k. rewrite str_eqb_refl in E. discriminate.
  Qed.
  Lemma u_split {T} (M : uval W -> T -> Prop) k a kw x d v : ~ In k (map fst kw) ->
    (u_says M ((k, a) :: kw) x d v <-> exists y, u_says M [(k, a)] x d y /\ u_says M kw x y v).
  Proof.
    intros H. rewrite (u_cons M k a kw). destruct (str_eqb (key x) k) eqn:E.
    - pose proof E as E0. apply str_eqb_eq in E0. split.
      + intros X. exists v. split; [rewrite u_cons, E; exact X|]. apply u_other; [rewrite E0; exact H|reflexivity].
      + intros (y & A & B). apply u_other in B; [|rewrite E0; exact H]. subst y. rewrite u_cons, E in A. exact A.
    - split.
      + intros X. exists d. split; [rewrite u_cons, E; apply u_nil; reflexivity|exact X].
      + intros (y & A & B). rewrite u_cons, E in A. apply u_nil in A. subst y. exact B.
  Qed.

  Lemma plain_read {T} (read : tval -> res pm_error T) (M : tval -> T -> Prop) (a : uval W) v :
    (forall t x, read t = Ok x <-> M t x) -> (forall x, ~ M TObject x) -> (read (plain_val a) = Ok v <-> plainly M a v).
  Proof.
    intros R N0. unfold plainly. destruct a as [w|t]; cbn [plain_val]; rewrite R.
    - split; [intros X; destruct (N0 _ X)|intros (t & E & _); discriminate].
    - split; [intros X; exists t; tauto|intros (t' & E & X); injection E as ->; exact X].
  Qed.
  Lemma num32_read t n : t_num32 t = Ok n <-> number32 t n.
  Proof.
    unfold t_num32, number32. rewrite <- number_read. destruct (t_num t) as [m|e|]; cbn [bind]; [|split; [discriminate|intros [? _]; discriminate]..].
    destruct (N.ltb m (2 ^ 32)) eqn:E; [apply N.ltb_lt in E|apply N.ltb_ge in E]; split.
    - intros X. injection X as <-. tauto.
    - intros [X _]. exact X.
    - discriminate.
    - intros [X L]. injection X as ->. exfalso. apply (N.lt_irrefl n). eapply N.lt_le_trans; eassumption.
  Qed.
  Lemma float_read a w : t_float of_int a = Ok w <-> a_float of_int a w.
  Proof.
    unfold a_float, t_float. split.
    - destruct a as [x|[|b|z|s|l|l|]]; try discriminate.
      + intros X. injection X as ->. tauto.
      + intros X. destruct b; [destruct (of_int 1) eqn:E|destruct (of_int 0) eqn:E]; try discriminate; injection X as ->; tauto.
      + intros X. destruct (of_int z) eqn:E; try discriminate. injection X as ->. right. left. eauto.
    - intros [->|[(z & -> & E)|[(-> & E)|(-> & E)]]]; [reflexivity|rewrite E; reflexivity..].
  Qed.
  Lemma no_number x : ~ number TObject x.
  Proof. intros [(?&_)|[(?&_)|(?&_)]]; discriminate. Qed.
  Lemma no_number32 x : ~ number32 TObject x.
  Proof. intros [X _]. exact (no_number _ X). Qed.
  Lemma no_flag x : ~ flag TObject x.
  Proof. discriminate. Qed.
  Lemma no_unk x : ~ none_or a_text TObject x.
  Proof. intros [(?&_)|(s & _ & X)]; discriminate. Qed.
  Lemma no_chars x : ~ exact_new TObject x.
  Proof. discriminate. Qed.
  Lemma unk_read t o : t_option t_str t = Ok o <-> none_or a_text t o.
  Proof. apply (affix_read false). Qed.

  Lemma same_uni (c c' : uni_trainer W) : c' = c <->
    ut_vocab c' = ut_vocab c /\ ut_show c' = ut_show c /\ ut_iterations c' = ut_iterations c /\ ut_shrinking c' = ut_shrinking c /\ ut_unk c' = ut_unk c /\
    ut_piece c' = ut_piece c /\ ut_seed c' = ut_seed c /\ ut_alphabet c' = ut_alphabet c /\ ut_tokens c' = ut_tokens c.
  Proof. split; [intros ->; tauto|]. destruct c, c'. cbn. intros (-> & -> & -> & -> & -> & -> & -> & -> & ->). reflexivity. Qed.

  Lemma uni_split alpha st k a kw c c' : ~ In k (map fst kw) ->
    (uni_says_with alpha of_int st ((k, a) :: kw) c c' <->
     exists c1, uni_says_with alpha of_int st [(k, a)] c c1 /\ uni_says_with alpha of_int st kw c1 c').
  Proof.
    intros H. unfold uni_says_with at 1. rewrite !u_split by exact H. split.
    - intros ((y1 & P1 & Q1) & (y2 & P2 & Q2) & (y3 & P3 & Q3) & (y4 & P4 & Q4) & (y5 & P5 & Q5) & (y6 & P6 & Q6) & (y7 & P7 & Q7) & (y8 & P8 & Q8) & (y9 & P9 & Q9)).
      exists (mkUniTrainer y2 y1 y3 y4 y9 y8 y5 y6 y7). unfold uni_says_with.
      cbn [ut_show ut_vocab ut_iterations ut_shrinking ut_tokens ut_alphabet ut_unk ut_piece ut_seed]. split; tauto.
    - intros (c1 & (P1 & P2 & P3 & P4 & P5 & P6 & P7 & P8 & P9) & (Q1 & Q2 & Q3 & Q4 & Q5 & Q6 & Q7 & Q8 & Q9)).
      split; [exact (ex_intro _ _ (conj P1 Q1))|]. split; [exact (ex_intro _ _ (conj P2 Q2))|]. split; [exact (ex_intro _ _ (conj P3 Q3))|].
      split; [exact (ex_intro _ _ (conj P4 Q4))|]. split; [exact (ex_intro _ _ (conj P5 Q5))|]. split; [exact (ex_intro _ _ (conj P6 Q6))|].
      split; [exact (ex_intro _ _ (conj P7 Q7))|]. split; [exact (ex_intro _ _ (conj P8 Q8))|exact (ex_intro _ _ (conj P9 Q9))].
  Qed.

  Lemma uni_field_says st c k a c' : str_eqb k (key "special_tokens") = false ->
    (uni_field of_int c k a = Ok c' <-> uni_says_with exact_new of_int st [(k, a)] c c').
  Proof.
    intros ES. unfold uni_says_with. rewrite !u_one. rewrite ES.
    destruct c as [sh vo it fa sp al un pi se]. destruct c' as [sh' vo' it' fa' sp' al' un' pi' se'].
    cbn [ut_show ut_vocab ut_iterations ut_shrinking ut_tokens ut_alphabet ut_unk ut_piece ut_seed]. unfold uni_field.
    assert (R1 : forall x, t_num32 (plain_val a) = Ok x <-> plainly number32 a x) by (intros x; apply plain_read; [apply num32_read|apply no_number32]).
    assert (R2 : forall x, t_num (plain_val a) = Ok x <-> plainly number a x) by (intros x; apply plain_read; [apply number_read|apply no_number]).
    assert (R3 : forall x, t_bool (plain_val a) = Ok x <-> plainly flag a x) by (intros x; apply plain_read; [apply flag_read'|apply no_flag]).
    assert (R4 : forall x, t_option t_str (plain_val a) = Ok x <-> plainly (none_or a_text) a x) by (intros x; apply plain_read; [apply unk_read|apply no_unk]).
    assert (R5 : forall x, t_alphabet_new (plain_val a) = Ok x <-> plainly exact_new a x) by (intros x; apply plain_read; [reflexivity|apply no_chars]).
    pose proof (float_read a) as R6.
    repeat match goal with |- ((if str_eqb k (key ?w) then _ else _) = _) <-> _ =>
      let E := fresh "E" in destruct (str_eqb k (key w)) eqn:E; [apply str_eqb_eq in E; subst k; keys; cbn iota;
        rewrite bind_ok; first [setoid_rewrite R1|setoid_rewrite R2|setoid_rewrite R3|setoid_rewrite R4|setoid_rewrite R5|setoid_rewrite R6];
        (split; [intros (x & A & B); injection B as -> -> -> -> -> -> -> -> ->; tauto|intros H; decompose [and] H; subst; eauto])|] end.
    split; [intros X; injection X as -> -> -> -> -> -> -> -> ->; tauto|intros H; decompose [and] H; subst; reflexivity].
  Qed.

  Lemma uni_listed_cons k a (kw : list (str * uval W)) : 
    uni_listed ((k, a) :: kw) = if str_eqb k (key "special_tokens") then uni_listed [(k, a)] else uni_listed kw.
  Proof.
    unfold uni_listed. cbn [aget]. destruct (str_eqb k (key "special_tokens")) eqn:E.
    - apply str_eqb_eq in E. subst k. rewrite str_eqb_refl. reflexivity.
    - destruct (str_eqb (key "special_tokens") k) eqn:E'; [|reflexivity]. apply str_eqb_eq in E'. subst k. rewrite str_eqb_refl in E. discriminate.
  Qed.
  Lemma uni_listed_absent (kw : list (str * uval W)) : ~ In (key "special_tokens") (map fst kw) -> uni_listed kw = [].
  Proof.
    intros H. unfold uni_listed. destruct (aget str_eqb (key "special_tokens") kw) as [a|] eqn:E; [|reflexivity]. apply (aget_In str_eqb str_eqb_eq) in E. apply (in_map fst) in E. tauto.
  Qed.
  Lemma uni_one_says st c k a st' c' :
    (uni_setting of_int st c k a = (st', Ok c') <-> uni_says_with exact_new of_int st [(k, a)] c c' /\ marked (uni_listed [(k, a)]) st st').
  Proof.
    unfold uni_setting. destruct (str_eqb k (key "special_tokens")) eqn:ES.
    - apply str_eqb_eq in ES. subst k.
      assert (SAYS : uni_says_with exact_new of_int st [(key "special_tokens", a)] c c' <-> exists ts, plainly (special_list st) a ts /\ c' = uni_tokens c ts).
      { unfold uni_says_with. rewrite !u_one. keys. cbn iota. destruct c as [sh vo it fa sp al un pi se]. destruct c' as [sh' vo' it' fa' sp' al' un' pi' se']. unfold uni_tokens.
        cbn [ut_show ut_vocab ut_iterations ut_shrinking ut_tokens ut_alphabet ut_unk ut_piece ut_seed]. split.
        - intros H. exists sp'. decompose [and] H. subst. tauto.
        - intros (ts & A & B). injection B as -> -> -> -> -> -> -> -> ->. tauto. }
      rewrite SAYS. unfold uni_listed. cbn [aget]. rewrite str_eqb_refl. unfold plainly, special_list.
      destruct a as [w|[|b|z|s|l|l|]]; cbn [plain_val t_specials];
        try (split; [intros X; apply (f_equal snd) in X; cbn in X; discriminate X|intros ((ts & (t & T & l0 & A & _) & _) & _); try discriminate T; injection T as <-; discriminate A]).
      destruct (read_specials st l) as [st1 r1] eqn:E1. split.
      + intros E. assert (X1 : st1 = st') by congruence. assert (X2 : (let! sp := r1 in Ok (uni_tokens c sp)) = Ok c') by congruence. subst st1.
        apply bind_ok in X2 as (ts & -> & ->). destruct (proj1 (read_specials_ok _ _ _ _) E1) as [F M]. split; [|exact M]. exists ts. split; [|reflexivity]. exists (TList l). split; [reflexivity|]. exists l. split; [reflexivity|exact F].
      + intros ((ts & (t & T & l0 & A & F) & ->) & M). injection T as <-. injection A as <-. pose proof (proj2 (read_specials_ok _ _ _ _) (conj F M)) as R. rewrite R in E1. injection E1 as <- <-. reflexivity.
    - assert (LI : uni_listed [(k, a)] = []) by (apply uni_listed_absent; intros [X|[]]; cbn in X; subst k; rewrite str_eqb_refl in ES; discriminate).
      rewrite LI, <- (uni_field_says st c k a c' ES). split.
      + intros E. split; [congruence|]. replace st' with st by congruence. apply marked_nil.
      + intros (A & M). rewrite A, (marked_fun _ _ _ _ M (marked_nil st)). reflexivity.
  Qed.
  Lemma uni_store alpha st st' kw c c' : ~ In (key "special_tokens") (map fst kw) ->
    (uni_says_with alpha of_int st kw c c' <-> uni_says_with alpha of_int st' kw c c').
  Proof.
    intros H. unfold uni_says_with. rewrite (u_other (plainly (special_list st))) by exact H. rewrite (u_other (plainly (special_list st'))) by exact H. reflexivity.
  Qed.
  Lemma uni_settings_say kw : forall st c st' c', NoDup (map fst kw) ->
    (uni_settings of_int st c kw = (st', Ok c') <-> uni_says_with exact_new of_int st kw c c' /\ marked (uni_listed kw) st st').
  Proof.
    induction kw as [|[k v] kw IH]; intros st c st' c' ND; cbn [uni_settings].
    - unfold uni_says_with. rewrite !u_nil, <- (same_uni c c'). split.
      + intros E. split; [congruence|]. replace st' with st by congruence. apply marked_nil.
      + intros (-> & M). rewrite (marked_fun _ _ _ _ M (marked_nil st)). reflexivity.
    - cbn [map fst] in ND. inversion ND as [|? ? NI ND']; subst. rewrite uni_split by exact NI. rewrite (uni_listed_cons k v kw).
      destruct (uni_setting of_int st c k v) as [st1 r1] eqn:E1. pose proof (uni_one_says st c k v) as ONE.
      assert (LO : str_eqb k (key "special_tokens") = false -> uni_listed [(k, v)] = []) by (intros ES; apply uni_listed_absent; intros [X|[]]; cbn in X; subst k; rewrite str_eqb_refl in ES; discriminate).
      split.
      + intros E. destruct r1 as [c1|e|]; try discriminate. pose proof (proj1 (ONE _ _) E1) as [S1 M1]. pose proof (proj1 (IH _ _ _ _ ND') E) as [S2 M2].
        destruct (str_eqb k (key "special_tokens")) eqn:ES.
        * apply str_eqb_eq in ES. subst k. rewrite (uni_listed_absent kw NI) in M2. rewrite (marked_fun _ _ _ _ M2 (marked_nil st1)). split; [|exact M1]. exists c1. split; [exact S1|]. apply (uni_store _ _ st1); [exact NI|exact S2].
        * rewrite (LO eq_refl) in M1. rewrite (marked_fun _ _ _ _ M1 (marked_nil st)) in *. split; [exists c1; tauto|exact M2].
      + intros ((c1 & S1 & S2) & M). destruct (str_eqb k (key "special_tokens")) eqn:ES.
        * apply str_eqb_eq in ES. subst k. pose proof (proj2 (ONE st' c1) (conj S1 M)) as X. rewrite X in E1. injection E1 as <- <-. apply IH; [exact ND'|]. rewrite (uni_listed_absent kw NI). split; [|apply marked_nil]. apply (uni_store _ st); [exact NI|exact S2].
        * assert (M0 : marked (uni_listed [(k, v)]) st st) by (rewrite (LO eq_refl); apply marked_nil). pose proof (proj2 (ONE st c1) (conj S1 M0)) as X. rewrite X in E1. injection E1 as <- <-. apply IH; [exact ND'|]. split; [exact S2|exact M].
  Qed.
End uni.
