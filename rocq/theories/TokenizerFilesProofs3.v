(** Proofs about loading tokenizers: other files. *)
From Coq Require Import String.
From Verif Require Import Base StrBytes AMap EncodingModel TruncPadModel BpeModel WordPieceModel UnigramModel AddedModel ModelFilesModel ModelFilesSpec ModelFilesProofs ModelFilesProofs4 ComponentFilesModel ComponentFilesSpec ComponentFilesProofs3 TokenizerFilesModel TokenizerFilesSpec.

Section models.
  Context {W : Type} (A : arith W) (F : floats W).
  Lemma each_calm {S} (f : S -> str * json W -> res file_error S) : (forall st kv, calm (f st kv)) -> forall l st, calm (each_field f st l).
  Proof using. intros H. induction l as [|kv l IH]; intros st; [discriminate|]. cbn [each_field]. apply calm_bind; [apply H|]. intros x. apply IH. Qed.
  Lemma wp_calm (j : json W) : calm (wp_of_json j).
  Proof using.
    destruct j; try discriminate. cbn [wp_of_json]. apply calm_bind; [|intros [[?|] [?|] [?|] [?|]]; discriminate]. apply each_calm.
    intros [u p x vo] [k v]. unfold wp_field. pose proof (as_map_calm v). unfold calm. destruct (as_map v); try congruence; cbn [bind];
      destruct v; cbn [as_str as_usize bind]; repeat (match goal with |- context [if ?c then _ else _] => destruct c end; cbn [bind]); discriminate.
  Qed.
  Lemma wl_calm (j : json W) : calm (wl_of_json j).
  Proof using.
    destruct j; try discriminate. cbn [wl_of_json]. apply calm_bind; [|intros [[?|] [?|]]; discriminate]. apply each_calm.
    intros [u p] [k v]. unfold wl_field. pose proof (as_map_calm v). unfold calm. destruct (as_map v); try congruence; cbn [bind];
      destruct v; cbn [as_str as_usize bind]; repeat (match goal with |- context [if ?c then _ else _] => destruct c end; cbn [bind]); discriminate.
  Qed.
  Lemma uni_calm (j : json W) : calm (uni_of_json A F j).
  Proof using.
    destruct j; try discriminate. cbn [uni_of_json]. apply calm_bind.
    - apply each_calm. intros [u fb vo] [k v]. unfold uni_field.
      assert (H : as_vec (as_pair as_str (as_float F)) v <> Panic) by (apply as_vec_no_panic; intros; apply as_pair_no_panic; apply (as_no_panic W F)).
      unfold calm. destruct (as_vec _ v); try congruence; cbn [bind];
      destruct v; cbn [as_option as_str as_usize as_bool bind]; repeat (match goal with |- context [if ?c then _ else _] => destruct c end; cbn [bind]); discriminate.
    - intros st. destruct (uf_voc st) as [vocab|]; [|discriminate]. unfold uni_from. destruct (from_loop _ _ _ _ _ _) as [[a b] c].
      destruct (uf_unk st); [destruct (is_nil vocab); [discriminate|]; destruct (N.leb _ _)|]; discriminate.
  Qed.
  Lemma bpe_panic (j : json W) : bpe_of_json F j = Panic -> exists l, j = JObj l /\ In (key "merges") (map fst l).
  Proof using.
    intros H. destruct j as [| | | | | |l]; try discriminate H. exists l. split; [reflexivity|].
    destruct (in_dec (list_eq_dec N.eq_dec) (key "merges") (map fst l)) as [I|NI]; [exact I|]. rewrite (bpe_missing F l NI) in H. discriminate.
  Qed.
  Lemma model_panic (j : json W) : model_of_json A F j = Panic -> exists l, j = JObj l /\ In (key "merges") (map fst l).
  Proof using.
    assert (LB : forall j, load_bpe F j = Panic -> bpe_of_json F j = Panic) by (intros j' H; unfold load_bpe in H; destruct (bpe_of_json F j'); try discriminate; reflexivity).
    assert (L1 : forall j, load_wordpiece j <> Panic) by (intros j'; apply calm_bind; [apply wp_calm|discriminate]).
    assert (L2 : forall j, load_wordlevel j <> Panic) by (intros j'; apply calm_bind; [apply wl_calm|discriminate]).
    assert (L3 : forall j, load_unigram A F j <> Panic) by (intros j'; apply calm_bind; [apply uni_calm|discriminate]).
    assert (U : untagged A F j = Panic -> exists l, j = JObj l /\ In (key "merges") (map fst l)).
    { unfold untagged, or_try. intros H. destruct (load_bpe F j) eqn:E; [discriminate| |apply bpe_panic, LB, E].
      specialize (L1 j). destruct (load_wordpiece j); [discriminate| |congruence]. specialize (L2 j). destruct (load_wordlevel j); [discriminate| |congruence]. specialize (L3 j). congruence. }
    intros H. destruct j as [| | | | | |l]; try (apply U; exact H). cbn [model_of_json] in H. destruct (tag A F l) as [load|] eqn:ET; [|apply U; exact H].
    exists l. split; [reflexivity|]. set (l' := filter (fun kv => negb (str_eqb (fst kv) (key "type"))) l) in *.
    unfold tag in ET. destruct (filter _ l) as [|[k [| | | |s| |]] [|]]; try discriminate ET. unfold variant in ET.
    destruct (str_eqb s _); [injection ET as <-|destruct (str_eqb s _); [injection ET as <-|destruct (str_eqb s _); [injection ET as <-|destruct (str_eqb s _); [injection ET as <-|discriminate]]]];
      [|exfalso; eapply L1; exact H|exfalso; eapply L2; exact H|exfalso; eapply L3; exact H].
    apply LB in H. apply bpe_panic in H. destruct H as (l2 & E & I). injection E as <-. apply in_map_iff in I. destruct I as (kv & E & I). apply filter_In in I. rewrite <- E. apply in_map. apply I.
  Qed.
End models.

Section files.
  Context {W : Type} (P : platform W).
  Notation value := (json W).

  Lemma part_known st k v st' : part P st (k, v) = Ok st' ->
    In k field_names /\ (k = key "version" -> v = JStr (key "1.0")) /\ (pa_model st' <> None -> pa_model st <> None \/ k = key "model").
  Proof using.
    destruct st as [t p a n r q d m]. cbn [part]. intros H.
    repeat match type of H with
    | (if str_eqb ?x ?y then _ else _) = _ => let E := fresh "E" in destruct (str_eqb x y) eqn:E; [apply str_eqb_eq in E; subst|]
    | (let! _ := ?x in _) = _ => let E := fresh "R" in destruct x eqn:E; cbn [bind] in H; try discriminate H
    end; try discriminate H; injection H as <-; cbn [pa_model];
      (split; [unfold field_names; cbn [map In]; auto 12|]); (split; [|auto]); try (intros V; vm_compute in V; discriminate V).
    intros _. destruct v; try discriminate R. injection R as ->. reflexivity.
  Qed.
  Lemma parts_known l : forall st st', each_field (part P) st l = Ok st' ->
    (forall k v, In (k, v) l -> In k field_names /\ (k = key "version" -> v = JStr (key "1.0"))) /\
    (pa_model st' <> None -> pa_model st <> None \/ In (key "model") (map fst l)).
  Proof using.
    induction l as [|[k v] l IH]; intros st st' H; cbn [each_field] in H; [injection H as <-; split; [intros ? ? []|auto]|].
    destruct (part P st (k, v)) as [st1| |] eqn:E; cbn [bind] in H; try discriminate. apply part_known in E. destruct E as (E1 & E2 & E3). destruct (IH _ _ H) as [A B]. split.
    - intros k' v' [X|X]; [injection X as -> ->; auto|eapply A; exact X].
    - intros X. cbn [map fst In]. destruct (B X) as [Y|Y]; [|auto]. destruct (E3 Y); auto.
  Qed.

  Lemma truncation_calm (j : value) : calm (as_truncation j).
  Proof using.
    destruct j; try discriminate. cbn [as_truncation].
    assert (D : forall v : value, calm (as_direction v)) by (intros []; cbn; try discriminate; repeat (match goal with |- context [if ?c then _ else _] => destruct c end); discriminate).
    assert (S : forall v : value, calm (as_strategy v)) by (intros []; cbn; try discriminate; repeat (match goal with |- context [if ?c then _ else _] => destruct c end); discriminate).
    apply calm_bind; [apply calm_need_or; exact D|]. intros ?. apply calm_bind; [apply calm_need; intros; apply calm_nat|]. intros ?. apply calm_bind; [apply calm_need; exact S|]. intros ?.
    apply calm_bind; [apply calm_need; intros; apply calm_nat|]. discriminate.
  Qed.
  Lemma padding_calm (j : value) : calm (as_padding j).
  Proof using.
    destruct j; try discriminate. cbn [as_padding].
    assert (D : forall v : value, calm (as_direction v)) by (intros []; cbn; try discriminate; repeat (match goal with |- context [if ?c then _ else _] => destruct c end); discriminate).
    assert (S : forall v : value, calm (as_pad_strategy v)).
    { intros [| | | |s| |[|[k v] [|]]]; cbn [as_pad_strategy]; try discriminate; [destruct (str_eqb s _); discriminate|]. destruct (str_eqb k _); [|discriminate]. apply calm_bind; [apply calm_nat|discriminate]. }
    apply calm_bind; [apply calm_need; exact S|]. intros ?. apply calm_bind; [apply calm_need; exact D|]. intros ?. apply calm_bind; [apply calm_may; intros; apply calm_nat|]. intros ?.
    apply calm_bind; [apply calm_need; intros; apply calm_u32|]. intros ?. apply calm_bind; [apply calm_need; intros; apply calm_u32|]. intros ?. apply calm_bind; [apply calm_need; intros; apply calm_str|]. discriminate.
  Qed.
  Lemma added_calm (j : value) : calm (as_added j).
  Proof using.
    destruct j; try discriminate. cbn [as_added]. apply calm_bind; [apply calm_need; intros; apply calm_u32|]. intros ?. apply calm_bind; [apply calm_need; intros; apply calm_str|]. intros ?.
    do 5 (apply calm_bind; [apply calm_need; intros; apply calm_bool|]; intros ?). discriminate.
  Qed.

  Lemma part_panic st k v : part P st (k, v) = Panic -> load_panic k v.
  Proof using.
    destruct st as [t p a n r q d m]. cbn [part]. intros H.
    assert (AO : forall T (read : value -> res file_error T), as_option read v = Panic -> read v = Panic).
    { intros T read X. unfold as_option in X. destruct v; try discriminate; destruct (read _); try discriminate; reflexivity. }
    repeat match type of H with
    | (if str_eqb ?x ?y then _ else _) = _ => let E := fresh "E" in destruct (str_eqb x y) eqn:E; [apply str_eqb_eq in E; subst|]
    | (let! _ := ?x in _) = _ => let E := fresh "R" in destruct x eqn:E; cbn [bind] in H; try discriminate H
    end; try discriminate H.
    - exfalso. eapply calm_str. exact R.
    - exfalso. eapply truncation_calm. apply AO. exact R.
    - exfalso. eapply padding_calm. apply AO. exact R.
    - exfalso. revert R. apply calm_vec. exact added_calm.
    - left. split; [reflexivity|]. eapply norm_panic. apply AO. exact R.
    - exfalso. eapply pre_calm. apply AO. exact R.
    - right. split; [reflexivity|]. eapply model_panic. exact R.
    - exfalso. eapply dec_calm. apply AO. exact R.
    - exfalso. eapply proc_calm. apply AO. exact R.
  Qed.
  Lemma file_panic (j : value) : tokenizer_of_json P j = Panic -> exists l k v, j = JObj l /\ In (k, v) l /\ load_panic k v.
  Proof using.
    intros H. destruct j as [| | | | | |l]; try discriminate H. exists l. cbn [tokenizer_of_json] in H.
    assert (X : each_field (part P) parts0 l = Panic).
    { destruct (each_field (part P) parts0 l) as [st| |]; cbn [bind] in H; [|discriminate|reflexivity]. destruct (pa_model st); [|discriminate]. destruct (av_load _ _ _ _) as [? [|]]; discriminate. }
    clear H. revert X. generalize (@parts0 W). induction l as [|[k v] l IH]; intros st X; [discriminate|]. cbn [each_field] in X.
    destruct (part P st (k, v)) as [st1| |] eqn:E; cbn [bind] in X; [|discriminate|].
    - destruct (IH _ X) as (k' & v' & _ & I & L). exists k', v'. split; [reflexivity|]. split; [right; exact I|exact L].
    - exists k, v. split; [reflexivity|]. split; [left; reflexivity|]. eapply part_panic. exact E.
  Qed.
End files.
