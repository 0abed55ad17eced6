(** Proofs about saving and loading components: post-processors, values without
    "type", what loading can return. *)
From Coq Require Import String.
From Verif Require Import Base ListFacts StrBytes AMap EncodingModel NormModel PatternModel DecodersModel ProcessorsModel NormalizersModel PreTokenizersModel ModelFilesModel ModelFilesSpec ModelFilesProofs ComponentFilesModel ComponentFilesSpec ComponentFilesProofs.

(** ** Hash maps *)
Lemma same_map_get {V} (a b : list (str * V)) t : same_map a b -> aget str_eqb t b = aget str_eqb t a.
Proof.
  intros [D P]. assert (DA : NoDup (map fst a)) by (eapply Permutation_NoDup; [apply Permutation_map, Permutation_sym; exact P|exact D]).
  destruct (aget str_eqb t a) as [v|] eqn:E.
  - apply (In_aget str_eqb str_eqb_eq); [exact D|]. apply (Permutation_in _ P). apply (aget_In str_eqb str_eqb_eq). exact E.
  - apply (aget_none _ str_eqb_eq) in E. apply (aget_none _ str_eqb_eq). intros I. apply E. apply (Permutation_in _ (Permutation_map fst (Permutation_sym P))). exact I.
Qed.
Lemma as_specials_get t m : get_special t (as_specials m) = option_map as_special (aget str_eqb t m).
Proof. unfold get_special. induction m as [|[k s] m IH]; [reflexivity|]. cbn [as_specials map aget fst snd]. destruct (str_eqb t k); [reflexivity|exact IH]. Qed.
Lemma same_specials m m' t : same_map m m' -> get_special t (as_specials m') = get_special t (as_specials m).
Proof. intros S. rewrite !as_specials_get, (same_map_get _ _ t S). reflexivity. Qed.
Lemma same_count m m' tpl : same_map m m' -> count_added tpl (Some (as_specials m')) = count_added tpl (Some (as_specials m)).
Proof. intros S. unfold count_added. f_equal. apply map_ext. intros [|n t]; [reflexivity|]. rewrite (same_specials m m' n S). reflexivity. Qed.

(** ** Post-processors *)
Section proc.
  Context {W : Type} (by_key : list (str * special_token) -> list (str * special_token)) (S : key_sort by_key).
  Notation value := (json W).

  Lemma roberta_absent (l : list (str * value)) : field "sep" l = Ok None -> roberta_from l = Err EFile /\ bert_from l = Err EFile.
  Proof using. intros H. unfold roberta_from, bert_from. rewrite (need_absent _ _ _ H). auto. Qed.
  Lemma template_absent (l : list (str * value)) : field "single" l = Ok None -> template_from l = Err EFile.
  Proof using. intros H. unfold template_from. rewrite (need_absent _ _ _ H). auto. Qed.
  Lemma byte_level_other {T} (f : bool -> bool -> bool -> T) (l : list (str * value)) n : field "type" l = Ok (Some (JStr (key n))) -> str_eqb (key n) (key "ByteLevel") = false ->
    byte_level_from f l = Err EFile.
  Proof using. intros H D. unfold byte_level_from, typed. rewrite (need_at _ _ _ _ H). cbn [the_text]. rewrite D. reflexivity. Qed.
  Lemma byte_level_absent {T} (f : bool -> bool -> bool -> T) (l : list (str * value)) : field "type" l = Ok None -> byte_level_from f l = Err EFile.
  Proof using. intros H. unfold byte_level_from, typed. rewrite (need_absent _ _ _ H). reflexivity. Qed.

  Lemma roberta_reads (l : list (str * value)) sep cls trim aps vs vc : fits 32 (snd sep) -> fits 32 (snd cls) ->
    rearranged (of_tok_id sep) vs -> rearranged (of_tok_id cls) vc ->
    field "sep" l = Ok (Some vs) -> field "cls" l = Ok (Some vc) -> field "trim_offsets" l = Ok (Some (JBool trim)) -> field "add_prefix_space" l = Ok (Some (JBool aps)) ->
    roberta_from l = Ok (CqRoberta sep cls trim aps).
  Proof using.
    intros V1 V2 R1 R2 F1 F2 F3 F4. unfold roberta_from. rewrite (need_at _ _ _ _ F1), (reads_tok_id _ V1 _ R1). cbn [bind]. rewrite (need_at _ _ _ _ F2), (reads_tok_id _ V2 _ R2). cbn [bind].
    rewrite (need_at _ _ _ _ F3), (need_at _ _ _ _ F4). reflexivity.
  Qed.
  Lemma bert_reads (l : list (str * value)) sep cls vs vc : fits 32 (snd sep) -> fits 32 (snd cls) ->
    rearranged (of_tok_id sep) vs -> rearranged (of_tok_id cls) vc ->
    field "sep" l = Ok (Some vs) -> field "cls" l = Ok (Some vc) -> field "trim_offsets" l = Ok None ->
    roberta_from l = Err EFile /\ bert_from l = Ok (CqBert sep cls).
  Proof using.
    intros V1 V2 R1 R2 F1 F2 F3. unfold roberta_from, bert_from. rewrite (need_at _ _ _ _ F1), (reads_tok_id _ V1 _ R1). cbn [bind]. rewrite (need_at _ _ _ _ F2), (reads_tok_id _ V2 _ R2). cbn [bind].
    rewrite (need_absent _ _ _ F3). auto.
  Qed.
  Lemma template_reads (l : list (str * value)) t vs vp vm : template_valid t ->
    rearranged (JArr (map of_piece (tc_single t))) vs -> rearranged (JArr (map of_piece (tc_pair t))) vp -> rearranged (of_specials by_key (tc_special t)) vm ->
    field "single" l = Ok (Some vs) -> field "pair" l = Ok (Some vp) -> field "special_tokens" l = Ok (Some vm) ->
    exists t', template_from l = Ok (CqTemplate t') /\ same_template t t'.
  Proof using S.
    intros (V1 & V2 & V3 & V4 & C1 & C2) R1 R2 R3 F1 F2 F3. unfold template_from. rewrite (need_at _ _ _ _ F1).
    rewrite (reads_vec as_piece of_piece (fun p => p) (tc_single t)) by first [exact R1 | eapply Forall_impl; [|exact V1]; intros; apply reads_piece; assumption]. cbn [bind].
    rewrite (need_at _ _ _ _ F2), (reads_vec as_piece of_piece (fun p => p) (tc_pair t)) by first [exact R2 | eapply Forall_impl; [|exact V2]; intros; apply reads_piece; assumption]. cbn [bind].
    rewrite (need_at _ _ _ _ F3). destruct (reads_specials _ _ S V3 V4 _ R3) as (m' & -> & P). cbn [bind]. rewrite !map_id'.
    assert (SM : same_map (tc_special t) m') by (split; [eapply Permutation_NoDup; [apply Permutation_map; exact P|exact V3]|exact P]).
    eexists. split; [reflexivity|]. unfold same_template. cbn [tc_single tc_pair tc_added_single tc_added_pair tc_special]. rewrite !(same_count _ _ _ SM). auto.
  Qed.

  Lemma same_nested cs (l : list (str * value)) v : Forall (fun c => forall j : value, rearranged (proc_to_json by_key c) j -> exists c', proc_of_json j = Ok c' /\ same_proc c c') cs ->
    rearranged (JArr (map (proc_to_json by_key) cs)) v -> filter (fun kv => str_eqb (fst kv) (key "processors")) l = [(key "processors", v)] ->
    exists cs', nested "processors" l (kids "processors" proc_of_json l) = Ok cs' /\ Forall2 same_proc cs cs'.
  Proof using.
    intros H R F. assert (Q : exists l', v = JArr l' /\ Forall2 rearranged (map (proc_to_json by_key) cs) l').
    { inversion R; subst; [|eauto]. eexists. split; [reflexivity|]. clear. induction cs; constructor; [constructor|assumption]. }
    destruct Q as (l' & -> & Q). unfold nested. rewrite (need_at _ _ _ (JArr l')) by (unfold field; rewrite F; reflexivity). cbn [as_array bind].
    rewrite kids_filter, F. cbn [flat_map snd]. rewrite app_nil_r. clear F R. revert l' Q. induction H as [|c cs X _ IH]; intros l' Q; cbn in Q; inversion Q as [|? y ? l2 Y Q']; subst.
    - exists []. split; [reflexivity|constructor].
    - destruct (X _ Y) as (c' & E1 & S1). destruct (IH _ Q') as (cs' & E2 & S2). exists (c' :: cs'). cbn [map collect]. rewrite E1. cbn [bind]. rewrite E2. split; [reflexivity|constructor; assumption].
  Qed.

  Lemma proc_round c : proc_valid c -> forall j : value, rearranged (proc_to_json by_key c) j -> exists c', proc_of_json j = Ok c' /\ same_proc c c'.
  Proof using S.
    induction c as [cs IH|c NS] using proc_config_ind'; intros V j R.
    - cbn [proc_valid] in V. apply all_of_forall in V. cbn [proc_to_json] in R. opened R l'' F A. fields F. cbn [proc_of_json].
      rewrite (alike_proc _ _ A), (alike_kids _ _ _ _ A). set (l := _ :: _).
      destruct (same_nested cs l x0) as (cs' & N & S'); [rewrite Forall_forall in *; auto|exact R0|reflexivity|].
      exists (CqSequence cs'). split; [|constructor; exact S']. unfold proc_read. cbn [first_ok]. destruct (roberta_absent l eq_refl) as [-> ->]. rewrite (template_absent l eq_refl).
      rewrite (byte_level_other _ l "Sequence" eq_refl eq_refl). unfold proc_seq_from. rewrite N. reflexivity.
    - destruct c; cbn [proc_to_json] in R; try (exfalso; eapply NS; reflexivity); opened R l'' F A; cbn [proc_of_json]; rewrite (alike_proc _ _ A);
        cbn [proc_valid] in V; set (ks := kids _ _ _).
      + fields F. destruct V as [V1 V2]. exists (CqRoberta sep cls trim_offsets add_prefix_space). split; [|constructor]. unfold proc_read. cbn [first_ok].
        erewrite roberta_reads; [reflexivity|exact V1|exact V2|exact R0|exact R1|reflexivity|reflexivity|reflexivity|reflexivity].
      + fields F. destruct V as [V1 V2]. exists (CqBert sep cls). split; [|constructor]. unfold proc_read. cbn [first_ok].
        edestruct bert_reads as [-> ->]; [exact V1|exact V2|exact R0|exact R1|reflexivity|reflexivity|reflexivity|reflexivity].
      + fields F. eexists. split; [reflexivity|constructor].
      + fields F. unfold proc_read. cbn [first_ok]. set (l := _ :: _). destruct (roberta_absent l eq_refl) as [-> ->]. rewrite (byte_level_other _ l "TemplateProcessing" eq_refl eq_refl).
        destruct (template_reads l t _ _ _ V R0 R1 R2 eq_refl eq_refl eq_refl) as (t' & -> & S'). exists (CqTemplate t'). split; [reflexivity|constructor; exact S'].
  Qed.

  Lemma proc_round_untyped c : proc_valid c -> proc_untyped c -> forall j : value, rearranged (proc_to_json by_key c) j -> exists c', proc_of_json (without_type j) = Ok c' /\ same_proc c c'.
  Proof using S.
    intros V U j R. destruct c; try contradiction; cbn [proc_to_json] in R; opened R l'' F A; cbn [without_type proc_of_json]; apply alike_untyped in A; rewrite (alike_proc _ _ A);
      cbn [proc_valid] in V; set (ks := kids _ _ _); fields F.
    - destruct V as [V1 V2]. exists (CqRoberta sep cls trim_offsets add_prefix_space). split; [|constructor]. unfold proc_read. cbn [first_ok].
      erewrite roberta_reads; [reflexivity|exact V1|exact V2|exact R0|exact R1|reflexivity|reflexivity|reflexivity|reflexivity].
    - destruct V as [V1 V2]. exists (CqBert sep cls). split; [|constructor]. unfold proc_read. cbn [first_ok].
      edestruct bert_reads as [-> ->]; [exact V1|exact V2|exact R0|exact R1|reflexivity|reflexivity|reflexivity|reflexivity].
    - unfold proc_read. cbn [first_ok]. set (l := filter _ _). destruct (roberta_absent l eq_refl) as [-> ->]. rewrite (byte_level_absent _ l eq_refl).
      destruct (template_reads l t _ _ _ V R0 R1 R2 eq_refl eq_refl eq_refl) as (t' & -> & S'). exists (CqTemplate t'). split; [reflexivity|constructor; exact S'].
  Qed.
End proc.

(** A post-processor of the same description does the same. *)
Lemma same_apply m m' : same_map m m' -> forall tpl es add, apply_template (as_specials m') tpl es add = apply_template (as_specials m) tpl es add.
Proof.
  intros S. induction tpl as [|[s t|n t] tpl IH]; intros es add; cbn [apply_template]; [reflexivity| |].
  - destruct (nth_error es (seq_index s)); cbn [of_option bind]; [rewrite IH; reflexivity|reflexivity].
  - destruct add; [|apply IH]. rewrite (same_specials _ _ n S). destruct (get_special n _); cbn [of_option bind]; [rewrite IH; reflexivity|reflexivity].
Qed.
Lemma same_proc_alike c : forall c', same_proc c c' ->
  (forall b, added_tokens (proc_of c') b = added_tokens (proc_of c) b) /\ (forall is_ws es add, process_encodings is_ws (proc_of c') es add = process_encodings is_ws (proc_of c) es add).
Proof.
  induction c as [cs IH|c NS] using proc_config_ind'; intros c' H; inversion H as [|t t' St|l l' F]; subst; auto.
  - cbn [proc_of]. split.
    + intros b. cbn [added_tokens]. f_equal. rewrite !map_map. clear H. induction F as [|x y l l' XY F IHF]; [reflexivity|]. inversion IH as [|? ? I1 I2]; subst. cbn [map]. rewrite (proj1 (I1 _ XY)), IHF; auto.
    + intros is_ws es add. clear H. revert es. induction F as [|x y l l' XY F IHF]; intros es; [reflexivity|]. inversion IH as [|? ? I1 I2]; subst. specialize (IHF I2).
      cbn [map process_encodings] in *. rewrite (proj2 (I1 _ XY)). destruct (process_encodings is_ws (proc_of x) es add); cbn [bind]; [apply IHF|reflexivity|reflexivity].
  - destruct St as (E1 & E2 & E3 & E4 & SM). cbn [proc_of]. split.
    + intros b. cbn [added_tokens template_of tm_added_single tm_added_pair]. rewrite E3, E4. reflexivity.
    + intros is_ws es add. cbn [process_encodings]. unfold template_process. cbn [template_of tm_special tm_single tm_pair]. rewrite E1, E2.
      destruct es as [|e1 [|e2 [|]]]; try reflexivity; apply same_apply; exact SM.
  - exfalso. eapply NS. reflexivity.
Qed.

(** ** Without "type" *)
Section untyped.
  Context {W : Type} (E : engines).
  Notation value := (json W).

  Lemma norm_round_untyped c (j : value) : norm_valid E c -> norm_untyped c -> rearranged (norm_to_json c) j -> norm_of_json E (without_type j) = Ok c.
  Proof using.
    intros V U R. destruct c; try contradiction; cbn [norm_to_json] in R; opened R l'' F A; cbn [without_type norm_of_json]; apply alike_untyped in A; rewrite (alike_norm E _ _ A);
      cbn [norm_valid] in V; fields F; try reflexivity.
    - destruct strip_accents; cbn [of_option_bool] in *; fields R0; reflexivity.
    - rewrite (alike_kids _ _ _ _ A). set (l0 := filter _ _).
      transitivity (first_ok [norm_seq_from l0 (kids "normalizers" (norm_of_json E) l0)]); [|cbn [first_ok]; unfold norm_seq_from; erewrite nested_reads; [reflexivity| |exact R0|reflexivity]].
      + assert (H : exists cs, nested "normalizers" l0 (kids "normalizers" (norm_of_json E) l0) = Ok cs) by (eexists; eapply nested_reads; [|exact R0|reflexivity]; apply all_of_forall in V; rewrite Forall_forall in *; intros c I; apply norm_round; auto).
        destruct H as (cs & H). unfold norm_read, tagged_or, norm_seq_from. rewrite H. reflexivity.
      + apply all_of_forall in V. rewrite Forall_forall in *. intros c I. apply norm_round. auto.
    - set (ks := kids _ _ _). set (l0 := filter _ _). assert (P : precompiled_from E l0 = Ok (CnPrecompiled charsmap)).
      { unfold precompiled_from. rewrite (need_at _ _ _ (JStr charsmap)) by reflexivity. cbn [as_str bind]. destruct (en_chart E charsmap); [reflexivity|contradiction]. }
      unfold norm_read, tagged_or. rewrite P. reflexivity.
    - set (ks := kids _ _ _). set (l0 := filter _ _). assert (P : replace_from E CnReplace l0 = Ok (CnReplace p content)) by (eapply replace_reads; [exact V|exact R0|reflexivity|reflexivity|reflexivity]).
      unfold norm_read, tagged_or. rewrite P. reflexivity.
  Qed.

  Lemma dec_round_untyped c (j : value) : dec_valid E c -> dec_untyped c -> rearranged (dec_to_json c) j -> dec_of_json E (without_type j) = Ok c.
  Proof using.
    intros V U R. destruct c; try contradiction; cbn [dec_to_json] in R; opened R l'' F A; cbn [without_type dec_of_json]; apply alike_untyped in A; rewrite (alike_dec E _ _ A);
      cbn [dec_valid] in V; fields F; try reflexivity; set (ks := kids _ _ _); set (l0 := filter _ _).
    - assert (P : replace_from E CdReplace l0 = Ok (CdReplace p content)) by (eapply replace_reads; [exact V|exact R0|reflexivity|reflexivity|reflexivity]).
      unfold dec_read, tagged_or. rewrite P. reflexivity.
    - assert (P : strip_dec_from l0 = Ok (CdStrip content start stop)).
      { destruct V as [V1 V2]. unfold strip_dec_from. rewrite (need_at _ _ _ (JStr [content])) by reflexivity. cbn [bind as_char].
        rewrite (need_at _ _ _ x1), (reads_nat _ V1 _ R1) by reflexivity. cbn [bind]. rewrite (need_at _ _ _ x2), (reads_nat _ V2 _ R2) by reflexivity. reflexivity. }
      unfold dec_read, tagged_or. rewrite P. reflexivity.
  Qed.
End untyped.
