(** C104 for the Unigram trainer: its constructor means what its arguments say. *)
From Coq Require Import ZArith String Permutation.
From Verif Require Import Base StrBytes AMap AddedModel PySettingsModel ModelFilesModel PyModelModel PyTrainerModel PyTrainerSpec PyTrainerProofs PyTrainerProofs2 PyUniTrainerModel PyUniTrainerSpec PyUniTrainerProofs.

Section uni.
  Context {W : Type} (of_int : Z -> option W) (three_quarters : W).

  Lemma uni_defaults_are : ut0 three_quarters = uni_defaults three_quarters.
  Proof. reflexivity. Qed.

  (** The trainer returned is the one that the arguments describe, and exactly the objects
      listed became special. *)
  Theorem C104_unigram_new st kw st' c :
    NoDup (map fst kw) -> uni_new of_int three_quarters st kw = (st', Ok c) ->
    uni_says of_int st kw (uni_defaults three_quarters) c /\ marked (uni_listed kw) st st'.
  Proof.
    rewrite <- uni_defaults_are. intros ND E. destruct (proj1 (uni_settings_say of_int kw st _ st' c ND) E) as [(P1 & P2 & P3 & P4 & P5 & P6 & P7 & P8 & P9) M]. split; [|exact M].
    split; [exact P1|]. split; [exact P2|]. split; [exact P3|]. split; [exact P4|]. split; [exact P5|]. split; [exact P6|]. split; [exact P7|]. split; [|exact P9].
    clear - P8. unfold u_says in *. destruct (aget _ _ _) as [a|]; [|exact P8]. destruct P8 as (t & A & B). exists t. split; [exact A|apply exact_new_first; exact B].
  Qed.

  (** One is returned as soon as the arguments have a meaning. *)
  Theorem C104_unigram_accepts st kw c :
    NoDup (map fst kw) -> uni_says of_int st kw (uni_defaults three_quarters) c -> exists st' c', uni_new of_int three_quarters st kw = (st', Ok c').
  Proof.
    rewrite <- uni_defaults_are. intros ND (P1 & P2 & P3 & P4 & P5 & P6 & P7 & P8 & P9). destruct (marked_exists (uni_listed kw) st) as (st' & M).
    assert (X : exists al, u_says (plainly exact_new) kw "initial_alphabet" (ut_alphabet (ut0 three_quarters)) al).
    { clear - P8. unfold u_says in *. destruct (aget _ _ _) as [a|]; [|eauto]. destruct P8 as (t & A & B). destruct (first_exact _ _ B) as (cs & C). exists cs, t. tauto. }
    destruct X as (al & X). exists st', (mkUniTrainer (ut_show c) (ut_vocab c) (ut_iterations c) (ut_shrinking c) (ut_tokens c) al (ut_unk c) (ut_piece c) (ut_seed c)).
    apply (proj2 (uni_settings_say of_int kw st _ st' _ ND)). split; [|exact M].
    split; [exact P1|]. split; [exact P2|]. split; [exact P3|]. split; [exact P4|]. split; [exact P5|]. split; [exact P6|]. split; [exact P7|]. split; [exact X|exact P9].
  Qed.

  Lemma uni_one_calm st c k a : snd (uni_setting of_int st c k a) <> Panic.
  Proof.
    unfold uni_setting. destruct (str_eqb k _).
    - destruct a as [w|[|b|z|s|l|l|]]; cbn [plain_val t_specials snd bind]; try discriminate. pose proof (read_specials_calm l st) as H. destruct (read_specials st l) as [st1 r1]. cbn [snd] in *. apply bind_calm. exact H.
    - cbn [snd]. destruct c. unfold uni_field.
      assert (N32 : forall v, t_num32 v <> Panic) by (intros v; unfold t_num32; pose proof (t_num_calm v); destruct (t_num v); cbn [bind]; try congruence; destruct (_ <? _)%N; discriminate).
      assert (FL : t_float of_int a <> Panic) by (destruct a as [w|[|b|z|s|l|l|]]; cbn; try discriminate; destruct (of_int _); discriminate).
      repeat match goal with |- (if str_eqb k (key ?w) then _ else _) <> _ => destruct (str_eqb k (key w)); [apply bind_calm; try apply N32; try exact FL; try apply t_num_calm; try apply t_bool_calm|] end; try discriminate.
      + apply t_option_calm, t_str_calm.
      + apply (alphabet_calm true).
  Qed.
  (** When the constructor raises, the arguments have no meaning, and the objects changed
      are those of a first part of the list. *)
  Theorem C104_unigram_raises st kw st' r :
    NoDup (map fst kw) -> uni_new of_int three_quarters st kw = (st', r) -> (forall c, r <> Ok c) ->
    (exists e, r = Err e) /\ (forall c, ~ uni_says of_int st kw (uni_defaults three_quarters) c) /\ exists l1 l2, uni_listed kw = l1 ++ l2 /\ marked l1 st st'.
  Proof.
    intros ND E H. split; [|split].
    - assert (C : forall kw st c, snd (uni_settings of_int st c kw) <> Panic).
      { clear. induction kw as [|[k a] kw IH]; intros st c; cbn [uni_settings]; [discriminate|]. pose proof (uni_one_calm st c k a) as H.
        destruct (uni_setting of_int st c k a) as [st1 [c1|e|]]; cbn [snd] in *; [apply IH|discriminate|congruence]. }
      specialize (C kw st (ut0 three_quarters)). unfold uni_new in E. rewrite E in C. cbn [snd] in C. destruct r as [c|e|]; [destruct (H c eq_refl)|eauto|congruence].
    - intros c S. destruct (C104_unigram_accepts st kw c ND S) as (st2 & c2 & E2). rewrite E in E2. injection E2 as _ X. exact (H c2 X).
    - unfold uni_new in E. clear H. revert st E. generalize (ut0 three_quarters). induction kw as [|[k a] kw IH]; intros c st; cbn [uni_settings].
      + intros E. exists [], []. split; [reflexivity|]. replace st' with st by congruence. apply marked_nil.
      + cbn [map fst] in ND. inversion ND as [|? ? NI ND']; subst. rewrite uni_listed_cons. unfold uni_setting. destruct (str_eqb k (key "special_tokens")) eqn:ES.
        * apply str_eqb_eq in ES. subst k.
          assert (ST : forall st1 r1, t_specials st (plain_val a) = (st1, r1) -> exists l1 l2, uni_listed [(key "special_tokens", a)] = l1 ++ l2 /\ marked l1 st st1).
          { unfold uni_listed. cbn [aget]. rewrite str_eqb_refl. intros st1 r1.
            destruct a as [w|[|b|z|s|l|l|]]; cbn [plain_val t_specials]; try (intros X; replace st1 with st by congruence; exists [], []; split; [reflexivity|apply marked_nil]).
            apply read_specials_store. }
          destruct (t_specials st (plain_val a)) as [st1 r1]. destruct (ST st1 r1 eq_refl) as (l1 & l2 & L & M).
          destruct r1 as [ts|e|]; cbn [bind]; intros E.
          -- destruct (IH ND' _ _ E) as (x & y & L2 & M2). rewrite (uni_listed_absent kw NI) in L2. symmetry in L2. apply app_eq_nil in L2 as [-> ->]. rewrite (marked_fun _ _ _ _ M2 (marked_nil st1)). eauto.
          -- replace st' with st1 by congruence. eauto.
          -- replace st' with st1 by congruence. eauto.
        * destruct (uni_field of_int c k a) as [c1|e|]; intros E.
          -- exact (IH ND' _ _ E).
          -- exists [], (uni_listed kw). split; [reflexivity|]. replace st' with st by congruence. apply marked_nil.
          -- exists [], (uni_listed kw). split; [reflexivity|]. replace st' with st by congruence. apply marked_nil.
  Qed.
End uni.

(** A vocabulary that a [BpeTrainer] may have is refused. *)
Theorem C104_unigram_size_refuted : exists (v : tval) c,
  trainer_new KBpe [] [(key "vocab_size", v)] = ([], Ok c) /\
  forall W of_int (q : W), uni_new of_int q [] [(key "vocab_size", UPlain v)] = ([], Err PType).
Proof. exists (TInt 4294967296). eexists. split; [vm_compute; reflexivity|]. intros W of_int q. reflexivity. Qed.

Example C104_unigram_example : exists st' c,
  uni_new (fun z => Some z) 75%Z [token_from (key "<a>") false]
    [(key "shrinking_factor", UFloat 9%Z); (key "special_tokens", UPlain (TList [EToken 0; EText (key "b"); EToken 0])); (key "unk_token", UPlain TNone); (key "vocab_size", UPlain (TInt 5))] = (st', Ok c) /\
  st' = [as_special (token_from (key "<a>") false)] /\ map at_content (ut_tokens c) = [key "<a>"; key "b"; key "<a>"] /\ ut_shrinking c = 9%Z /\ ut_vocab c = 5%N /\ ut_piece c = 16%N.
Proof. eexists. eexists. split; [vm_compute; reflexivity|]. repeat match goal with |- _ /\ _ => split end; vm_compute; reflexivity. Qed.
