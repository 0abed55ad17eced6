(** Proofs about saving and loading tokenizers: the tokenizers that are made, the
    models and the file. *)
From Coq Require Import String.
From Coq Require Import Sorting.Permutation Sorting.Sorted.
From Verif Require Import Base StrBytes ListFacts AMap EncodingModel TruncPadModel NormModel PreTokModel BpeWordModel BpeModel BpeSpec BpeProofs RoundTripModel RoundTripProofs WordPieceModel TrieModel UnigramModel UnigramSpec UnigramProofs AddedModel AddedSpec AddedProofs AddedProofs2 ProcessorsModel TokenizerModel ModelFilesModel ModelFilesSpec ModelFilesProofs ModelFilesProofs3 ModelFilesProofs4 ModelFilesProps ComponentFilesModel ComponentFilesSpec ComponentFilesProofs ComponentFilesProofs2 ComponentFilesProps TokenizerFilesModel TokenizerFilesSpec TokenizerFilesProofs.

(** ** The tokenizers that are made *)
Section states.
  Context {W : Type} (P : platform W) (m : @model W) (MO : model_ok (model_vocabulary m)) (DE : AddedSpec.dense (model_vocabulary m)).

  Record facts (g : config W) (ts : list added_token) : Prop := {
    fa_model : g_model g = m;
    fa_inv : av_inv (model_vocabulary m) (g_added g);
    fa_clean : clean (norm_fun P g) (g_added g);
    fa_from : from_list (g_added g) ts;
    fa_current : current (pf_build P) (g_added g) }.

  Lemma clean_core norm av av' : same_core av av' -> av_cache av' = av_cache av -> clean norm av -> clean norm av'.
  Proof using.
    intros (C1 & C2 & C3) C4 [A B C]. constructor.
    - intros i n. rewrite C4, C2. apply A.
    - intros c. rewrite C3. unfold registered. rewrite C1, C2. apply B.
    - intros i t f. rewrite C2. apply C.
  Qed.
  Lemma recache_runs norm l : forall c c', recache norm l c = (c', true) ->
    forall i t f, In (i, t) l -> at_normalized t = true -> norm = Some f -> f (at_content t) <> None.
  Proof using.
    induction l as [|[j u] l IH]; intros c c' H i t f IN NO NF; [destruct IN|]. cbn [recache] in H. subst norm. destruct IN as [E|IN].
    - injection E as -> ->. rewrite NO in H. destruct (f (at_content t)); [discriminate|discriminate].
    - destruct (at_normalized u); [destruct (f (at_content u)); [|discriminate]|]; eapply IH; eauto.
  Qed.

  Lemma made_facts g ts : made P m g ts -> consistent ts -> facts g ts.
  Proof using MO DE.
    induction 1 as [|g ts n g' M IH H|g ts p M IH|g ts p M IH|g ts d M IH|g ts t M IH|g ts p M IH|g ts more g' n M IH H|g ts b M IH]; intros CO;
      try (destruct (IH CO) as [A B C D E]; constructor; assumption).
    - constructor; cbn [tokenizer_new g_model g_added]; [reflexivity|apply av_new_inv| |intros i t X; discriminate X|reflexivity].
      constructor; cbn.
      + intros i x. split; [discriminate|]. intros (t & X & _). discriminate X.
      + intros c. split; [intros []|]. intros (t & X & _). discriminate X.
      + intros; discriminate.
    - destruct (IH CO) as [A B C D E]. unfold with_normalizer in H.
      set (g1 := mkConfig n (g_pre g) (g_model g) (g_post g) (g_decoder g) (g_added g) (g_truncation g) (g_padding g)) in *.
      destruct (av_refresh_normalized (pf_build P) (norm_fun P g1) (g_added g1)) as [av ok] eqn:EA. injection H as <- ->. cbn [g_added g1] in EA.
      pose proof (renormalize_core _ _ _ _ _ EA) as SC. pose proof (renormalize_names _ _ _ _ (ai_keys_r _ _ B) EA) as RN.
      pose proof SC as (C1 & C2 & C3). constructor; cbn [set_added g_model g_added g1].
      + exact A.
      + eapply av_inv_core; eassumption.
      + change (norm_fun P (set_added g1 av)) with (norm_fun P g1). constructor.
        * exact RN.
        * intros c. rewrite C3. unfold registered. rewrite C1, C2. apply (cl_special _ _ C).
        * intros i t f. rewrite C2. intros X Y Z. unfold av_refresh_normalized in EA.
          destruct (recache (norm_fun P g1) (av_map_r (g_added g)) []) as [c [|]] eqn:EC; [|discriminate].
          eapply recache_runs; try exact EC; try eassumption. apply (aget_In N.eqb N_eqb_eq). exact X.
      + intros i t. rewrite C2. apply D.
      + unfold av_refresh_normalized in EA. destruct (recache (norm_fun P g1) (av_map_r (g_added g)) []) as [c [|]] eqn:EC; [|discriminate].
        eapply refresh_current. exact EA.
    - assert (CO' : consistent ts) by (intros t u X Y; apply CO; apply in_or_app; left; assumption).
      destruct (IH CO') as [A B C D E]. unfold tokenizer_add in H.
      destruct (add_tokens (pf_build P) (model_vocabulary (g_model g)) (norm_fun P g) more (g_added g)) as [av r] eqn:EA. injection H as <- ->. rewrite A in EA.
      pose proof (add_tokens_inv _ _ _ _ _ _ _ MO DE B EA) as I'. unfold add_tokens in EA.
      destruct (add_loop (model_vocabulary m) (norm_fun P g) more (g_added g) (first_next_id (g_added g) (model_vocabulary m)) 0) as [a1 [k|]] eqn:EL; [|discriminate].
      destruct (av_refresh (pf_build P) a1) as [a2 [|]] eqn:ER; [|discriminate]. injection EA as -> ->.
      destruct (clean_loop _ MO DE (norm_fun P g) (ts ++ more) CO more (g_added g) (first_next_id (g_added g) (model_vocabulary m)) 0 a1 n) as [C' D']; try assumption.
      + intros t X. apply in_or_app. right. exact X.
      + apply first_next_free; assumption.
      + intros i t X. apply in_or_app. left. eapply D. exact X.
      + pose proof (av_refresh_core _ _ _ _ ER) as (SC & C4 & _). pose proof SC as (C1 & C2 & C3). constructor; cbn [set_added g_model g_added]; [exact A|exact I'| | |].
        * change (norm_fun P (set_added g av)) with (norm_fun P g). eapply clean_core; eassumption.
        * intros i t. rewrite C2. apply D'.
        * eapply refresh_current. exact ER.
    - destruct (IH CO) as [A B C D E]. constructor; cbn [encode_special_tokens set_added g_model g_added]; try assumption.
      + eapply av_inv_core; [|exact B]. repeat split.
      + change (norm_fun P (encode_special_tokens g b)) with (norm_fun P g). eapply clean_core; [| |exact C]; [repeat split|reflexivity].
      + destruct (current_tries _ _ E) as (B1 & B2 & T1 & T2). unfold current, av_refresh.
        change (plain_pairs (av_set_encode_special (g_added g) b)) with (plain_pairs (g_added g)).
        change (normalized_pairs (av_set_encode_special (g_added g) b)) with (normalized_pairs (g_added g)). rewrite B1, B2. unfold av_set_encode_special. cbn. rewrite T1, T2. reflexivity.
  Qed.
End states.

(** ** The models *)
Lemma table_ok vocab : writable vocab -> model_ok (mkModel (fun t => aget str_eqb t vocab) (fun i => aget N.eqb i (reverse_vocab vocab)) vocab (List.length vocab)).
Proof.
  intros (D1 & D2 & _). constructor; cbn [mv_vocab mv_token_to_id mv_id_to_token mv_size]; [exact D1| | |reflexivity].
  - intros t i. symmetry. apply in_aget. exact D1.
  - intros t i. rewrite (reverse_vocab_iff _ _ _ D2). apply in_aget. exact D1.
Qed.

Lemma from_loop_keys {W} (A : arith W) vocab : forall id ids trie lo ids' trie' lo', from_loop A id vocab ids trie lo = (ids', trie', lo') ->
  NoDup (map fst ids ++ map fst vocab) -> map fst ids' = map fst ids ++ map fst vocab.
Proof.
  induction vocab as [|[t w] vocab IH]; intros id ids trie lo ids' trie' lo' E D; cbn [from_loop map fst] in *.
  - injection E as <- _ _. rewrite app_nil_r. reflexivity.
  - assert (K : map fst (aset str_eqb t id ids) = map fst ids ++ [t]).
    { rewrite aset_keys. unfold amem. destruct (aget str_eqb t ids) eqn:G; [|reflexivity]. exfalso.
      apply (aget_In str_eqb str_eqb_eq) in G. apply (in_map fst) in G. apply NoDup_remove_2 in D. apply D. apply in_or_app. left. exact G. }
    apply IH in E; rewrite K in *; rewrite <- app_assoc in *; [exact E|exact D].
Qed.

Lemma unigram_ok {W} (A : arith W) vocab unk fb m : uni_from A vocab unk fb = Ok m -> NoDup (map fst (u_vocab m)) -> model_ok (model_vocabulary (MUnigram m)).
Proof.
  intros E D. unfold uni_from in E. destruct (from_loop A 0 vocab [] tnode0 (a_inf A)) as [[ids trie] lo] eqn:EL.
  assert (X : u_ids m = ids /\ u_vocab m = vocab).
  { destruct unk as [k|]; [destruct (is_nil vocab); [discriminate|]; destruct (N.leb _ k); [discriminate|]|]; injection E as <-; split; reflexivity. }
  destruct X as [X1 X2]. rewrite X2 in D. clear E.
  destruct (from_loop_spec A vocab [] [] tnode0 (a_inf A) ids trie lo) as [F1 _]; [|reflexivity|exact EL|].
  { intros t id. cbn. split; [discriminate|]. intros (w & X & _). destruct (N.to_nat id); discriminate. }
  cbn [app] in F1. pose proof (from_loop_keys A vocab _ _ _ _ _ _ _ EL D) as K. cbn [map app] in K.
  constructor; cbn [model_vocabulary mv_vocab mv_token_to_id mv_id_to_token mv_size]; rewrite ?X1, ?X2.
  - rewrite K. exact D.
  - intros t i. unfold uni_token_to_id. rewrite X1. symmetry. apply in_aget. rewrite K. exact D.
  - intros t i. unfold uni_token_to_id, uni_id_to_token, u_item. rewrite X1, X2, F1. split.
    + intros H. destruct (nth_error vocab (N.to_nat i)) as [[t' w]|] eqn:N1; [|discriminate]. injection H as ->. exists w. split; [exact N1|].
      intros j u L N2. apply (f_equal (option_map fst)) in N1, N2. rewrite <- !nth_error_map in *. cbn in N1, N2.
      assert (N.to_nat i = j); [|lia]. eapply NoDup_nth_error; [exact D| |congruence]. apply nth_error_Some. congruence.
    + intros (w & N1 & _). rewrite N1. reflexivity.
  - rewrite <- (map_length fst vocab), <- K, map_length. reflexivity.
Qed.

Lemma sound_ok {W} (P : platform W) m : model_sound P m -> model_ok (model_vocabulary m).
Proof.
  intros (S & D & M). destruct m as [m|m|m|m]; cbn [savable] in S.
  - destruct M as (vocab & merges & prefix & B & WR & _). eapply bpe_model_ok; [exact B|apply WR].
  - apply table_ok. apply S.
  - apply table_ok. exact S.
  - destruct S as ((vocab & unk & fb & E) & _). eapply unigram_ok; eassumption.
Qed.

Record same_vocab (m m' : model_vocab) : Prop := {
  sv_id : forall t, mv_token_to_id m' t = mv_token_to_id m t;
  sv_token : forall i, mv_id_to_token m' i = mv_id_to_token m i;
  sv_vocab : forall t, aget str_eqb t (mv_vocab m') = aget str_eqb t (mv_vocab m);
  sv_size : mv_size m' = mv_size m }.

Lemma same_reverse a b : writable a -> same_map a b -> forall i, aget N.eqb i (reverse_vocab b) = aget N.eqb i (reverse_vocab a).
Proof.
  intros (_ & D & _) [_ P] i. assert (D' : NoDup (map snd b)) by (eapply Permutation_NoDup; [apply Permutation_map; exact P|exact D]).
  apply aget_ext_some. intros t. rewrite (reverse_vocab_iff _ _ _ D), (reverse_vocab_iff _ _ _ D'). split; apply Permutation_in; [apply Permutation_sym|]; exact P.
Qed.

Lemma same_model_vocab {W} (P : platform W) m m' : model_sound P m -> same_model m m' -> same_vocab (model_vocabulary m) (model_vocabulary m').
Proof.
  intros (S & D & M) H. destruct m as [m|m|m|m], m' as [m'|m'|m'|m']; try contradiction; cbn [same_model savable] in *.
  - pose proof (same_bpe_maps _ _ H) as [A B]. destruct H as (SM & _). constructor; cbn; [exact A|exact B|intros t; apply same_map_aget; exact SM|].
    symmetry. apply Permutation_length. apply SM.
  - destruct H as [SM _]. destruct S as [S _]. constructor; cbn; [intros t; apply same_map_aget; exact SM|apply same_reverse; assumption|intros t; apply same_map_aget; exact SM|].
    symmetry. apply Permutation_length. apply SM.
  - destruct H as [SM _]. constructor; cbn; [intros t; apply same_map_aget; exact SM|apply same_reverse; assumption|intros t; apply same_map_aget; exact SM|].
    symmetry. apply Permutation_length. apply SM.
  - subst m'. constructor; reflexivity.
Qed.

Lemma same_model_tokenize {W} (P : platform W) m m' s : model_sound P m -> same_model m m' -> model_tokenize P m' s = model_tokenize P m s.
Proof.
  intros (S & D & M) H. pose proof (C66_tokenize m m' s H) as X. destruct m as [m|m|m|m], m' as [m'|m'|m'|m']; try contradiction; cbn [same_model model_tokenize] in *.
  - destruct M as (vocab & merges & prefix & B & WR & ND). unfold bpe_model. rewrite (C56_tokenize _ _ _ _ _ _ _ _ B WR ND H). reflexivity.
  - rewrite X. reflexivity.
  - rewrite X. reflexivity.
  - subst m'. reflexivity.
Qed.

(** ** The values of the fields *)
Section values.
  Context {W : Type}.
  Notation value := (json W).

  Lemma reads_direction d : reads (W := W) as_direction (of_direction d) d.
  Proof. intros j R. apply re_str in R. subst. destruct d; reflexivity. Qed.
  Lemma reads_strategy s : reads (W := W) as_strategy (of_strategy s) s.
  Proof. intros j R. apply re_str in R. subst. destruct s; reflexivity. Qed.
  Lemma reads_bool b : reads (W := W) as_bool (JBool b) b.
  Proof. intros j R. apply re_bool in R. subst. reflexivity. Qed.

  Lemma as_option_value {T} (read : value -> res file_error T) v j : v <> JNull -> rearranged v j -> as_option read j = let! x := read j in Ok (Some x).
  Proof. intros NN R. destruct j; try reflexivity. exfalso. apply NN. inversion R. reflexivity. Qed.
  Lemma reads_option {T} (read : value -> res file_error T) (f : T -> value) o : when o (fun x => f x <> JNull /\ reads read (f x) x) -> reads (as_option read) (of_option f o) o.
  Proof.
    intros H j R. destruct o as [x|]; cbn [of_option when] in *.
    - destruct H as [NN H]. rewrite (as_option_value _ _ _ NN R), (H j R). reflexivity.
    - apply re_null in R. subst. reflexivity.
  Qed.

  Lemma reads_truncation t : fits 64 (N.of_nat (tp_max_length t)) -> fits 64 (N.of_nat (tp_stride t)) -> reads (W := W) as_truncation (of_truncation t) t.
  Proof.
    intros H1 H2 j R. unfold of_truncation in R. opened R l'' F A. fields F. cbn [as_truncation]. by_alike A.
    rewrite (need_or_at _ _ _ _ x) by reflexivity. rewrite (reads_direction _ _ R). cbn [bind].
    rewrite (need_at _ _ _ x0) by reflexivity. rewrite (reads_nat _ H1 _ R0). cbn [bind].
    rewrite (need_at _ _ _ x1) by reflexivity. rewrite (reads_strategy _ _ R1). cbn [bind].
    rewrite (need_at _ _ _ x2) by reflexivity. rewrite (reads_nat _ H2 _ R2). destruct t; reflexivity.
  Qed.

  Lemma reads_pad_strategy s : match s with Fixed n => fits 64 (N.of_nat n) | BatchLongest => True end -> reads (W := W) as_pad_strategy (of_pad_strategy s) s.
  Proof.
    intros V j R. destruct s as [|n]; cbn [of_pad_strategy] in R.
    - apply re_str in R. subst. reflexivity.
    - apply re_obj1 in R. destruct R as (x & -> & R). cbn [as_pad_strategy]. rewrite str_eqb_refl, (reads_nat _ V _ R). reflexivity.
  Qed.

  Lemma reads_padding p : fits 32 (pp_id p) -> fits 32 (pp_type_id p) -> when (pp_multiple p) (fun n => fits 64 (N.of_nat n)) ->
    match pp_strategy p with Fixed n => fits 64 (N.of_nat n) | BatchLongest => True end -> reads (W := W) as_padding (of_padding p) p.
  Proof.
    intros H1 H2 H3 H4 j R. unfold of_padding in R. opened R l'' F A. fields F. cbn [as_padding]. by_alike A.
    rewrite (need_at _ _ _ x) by reflexivity. rewrite (reads_pad_strategy _ H4 _ R). cbn [bind].
    rewrite (need_at _ _ _ x0) by reflexivity. rewrite (reads_direction _ _ R0). cbn [bind].
    unfold may at 1. match goal with |- context [field "pad_to_multiple_of" ?l] => change (field "pad_to_multiple_of" l) with (Ok (E := file_error) (Some x1)) end. cbn [bind].
    rewrite (reads_option as_nat of_nat (pp_multiple p)) with (j := x1); [|destruct (pp_multiple p); [split; [discriminate|apply reads_nat; exact H3]|exact Logic.I]|exact R1]. cbn [bind].
    rewrite (need_at _ _ _ x2) by reflexivity. rewrite (reads_u32 _ H1 _ R2). cbn [bind].
    rewrite (need_at _ _ _ x3) by reflexivity. rewrite (reads_u32 _ H2 _ R3). cbn [bind].
    rewrite (need_at _ _ _ (JStr (pp_token p))) by reflexivity. destruct p; reflexivity.
  Qed.

  Lemma reads_added it : fits 32 (fst it) -> reads (W := W) as_added (of_added it) it.
  Proof.
    destruct it as [i t]. intros H1 j R. unfold of_added in R. cbn [fst] in H1. opened R l'' F A. fields F. cbn [as_added]. by_alike A.
    rewrite (need_at _ _ _ x) by reflexivity. rewrite (reads_u32 _ H1 _ R). destruct t; reflexivity.
  Qed.
End values.

(** ** The fields in any order *)
Section parts.
  Context {W : Type} (P : platform W).
  Notation value := (json W).

  (** Taking one field over from [T]. *)
  Definition pick_at (k : str) (s : string) {X} (a b : X) := if str_eqb k (key s) then a else b.
  Definition put (k : str) (T st : @parts W) : @parts W :=
    mkParts (pick_at k "truncation" (pa_truncation T) (pa_truncation st)) (pick_at k "padding" (pa_padding T) (pa_padding st))
      (pick_at k "added_tokens" (pa_tokens T) (pa_tokens st)) (pick_at k "normalizer" (pa_normalizer T) (pa_normalizer st))
      (pick_at k "pre_tokenizer" (pa_pre T) (pa_pre st)) (pick_at k "post_processor" (pa_post T) (pa_post st))
      (pick_at k "decoder" (pa_decoder T) (pa_decoder st)) (pick_at k "model" (pa_model T) (pa_model st)).
  Definition has (s : string) (l : list (str * value)) : bool := existsb (fun kv => str_eqb (fst kv) (key s)) l.
  Definition pick_in (l : list (str * value)) (s : string) {X} (a b : X) := if has s l then a else b.
  Definition taken (l : list (str * value)) (T st : @parts W) : @parts W :=
    mkParts (pick_in l "truncation" (pa_truncation T) (pa_truncation st)) (pick_in l "padding" (pa_padding T) (pa_padding st))
      (pick_in l "added_tokens" (pa_tokens T) (pa_tokens st)) (pick_in l "normalizer" (pa_normalizer T) (pa_normalizer st))
      (pick_in l "pre_tokenizer" (pa_pre T) (pa_pre st)) (pick_in l "post_processor" (pa_post T) (pa_post st))
      (pick_in l "decoder" (pa_decoder T) (pa_decoder st)) (pick_in l "model" (pa_model T) (pa_model st)).

  Lemma pick_cons (s : string) kv l {X} (a b : X) : pick_in l s a (pick_at (fst kv) s a b) = pick_in (kv :: l) s a b.
  Proof using. unfold pick_in, pick_at, has. cbn [existsb]. destruct (str_eqb _ _), (existsb _ _); reflexivity. Qed.

  Lemma each_put T l : (forall kv, In kv l -> forall st, part P st kv = Ok (put (fst kv) T st)) -> forall st, each_field (part P) st l = Ok (taken l T st).
  Proof using.
    induction l as [|kv l IH]; intros H st; [destruct st; reflexivity|]. cbn [each_field]. rewrite H by (left; reflexivity). cbn [bind].
    rewrite IH by (intros; apply H; right; assumption). f_equal. unfold taken, put. cbn [pa_truncation pa_padding pa_tokens pa_normalizer pa_pre pa_post pa_decoder pa_model].
    rewrite !pick_cons. reflexivity.
  Qed.

  Lemma has_perm s l l' : Permutation l l' -> has s l = true -> has s l' = true.
  Proof using. intros Q H. apply existsb_exists in H. destruct H as (x & I & E). apply existsb_exists. exists x. split; [eapply Permutation_in; eassumption|exact E]. Qed.

  Lemma part_version T v st : as_str v = Ok (key "1.0") -> part P st (key "version", v) = Ok (put (key "version") T st).
  Proof using. intros H. destruct st. cbn [part]. rewrite str_eqb_refl, H. cbn [bind]. rewrite str_eqb_refl. reflexivity. Qed.
  Lemma part_truncation T v st : as_option as_truncation v = Ok (pa_truncation T) -> part P st (key "truncation", v) = Ok (put (key "truncation") T st).
  Proof using. intros H. destruct st. cbn [part]. test_keys. rewrite H. reflexivity. Qed.
  Lemma part_padding T v st : as_option as_padding v = Ok (pa_padding T) -> part P st (key "padding", v) = Ok (put (key "padding") T st).
  Proof using. intros H. destruct st. cbn [part]. test_keys. rewrite H. reflexivity. Qed.
  Lemma part_tokens T v st : as_vec as_added v = Ok (pa_tokens T) -> part P st (key "added_tokens", v) = Ok (put (key "added_tokens") T st).
  Proof using. intros H. destruct st. cbn [part]. test_keys. rewrite H. reflexivity. Qed.
  Lemma part_normalizer T v st : as_option (norm_of_json (pf_engines P)) v = Ok (pa_normalizer T) -> part P st (key "normalizer", v) = Ok (put (key "normalizer") T st).
  Proof using. intros H. destruct st. cbn [part]. test_keys. rewrite H. reflexivity. Qed.
  Lemma part_pre T v st : as_option (pre_of_json (pf_engines P)) v = Ok (pa_pre T) -> part P st (key "pre_tokenizer", v) = Ok (put (key "pre_tokenizer") T st).
  Proof using. intros H. destruct st. cbn [part]. test_keys. rewrite H. reflexivity. Qed.
  Lemma part_post T v st : as_option proc_of_json v = Ok (pa_post T) -> part P st (key "post_processor", v) = Ok (put (key "post_processor") T st).
  Proof using. intros H. destruct st. cbn [part]. test_keys. rewrite H. reflexivity. Qed.
  Lemma part_decoder T v st : as_option (dec_of_json (pf_engines P)) v = Ok (pa_decoder T) -> part P st (key "decoder", v) = Ok (put (key "decoder") T st).
  Proof using. intros H. destruct st. cbn [part]. test_keys. rewrite H. reflexivity. Qed.
  Lemma part_model T v st m : model_of_json (pf_arith P) (pf_floats P) v = Ok m -> pa_model T = Some m -> part P st (key "model", v) = Ok (put (key "model") T st).
  Proof using. intros H E. destruct st. cbn [part]. test_keys. rewrite H. unfold put, pick_at. rewrite E. reflexivity. Qed.

  (** What loading makes of a saved file, in any order of the fields. *)
  Lemma norm_not_null c : norm_to_json (W := W) c <> JNull.
  Proof using. destruct c; discriminate. Qed.
  Lemma pre_not_null c : pre_to_json (W := W) c <> JNull.
  Proof using. destruct c; discriminate. Qed.
  Lemma dec_not_null c : dec_to_json (W := W) c <> JNull.
  Proof using. destruct c; discriminate. Qed.
  Lemma proc_not_null k c : proc_to_json (W := W) k c <> JNull.
  Proof using. destruct c; discriminate. Qed.

  Definition same_option {T} (R : T -> T -> Prop) (a b : option T) : Prop :=
    match a, b with Some x, Some y => R x y | None, None => True | _, _ => False end.

  Lemma saved_parts g mv : platform_ok P -> parts_valid P g -> (forall j, rearranged mv j -> exists m', model_of_json (pf_arith P) (pf_floats P) j = Ok m' /\ same_model (g_model g) m') ->
    NoDup (map fst (av_map_r (g_added g))) ->
    model_to_json (pf_floats P) (pf_by_rank P) (g_model g) = Ok mv ->
    exists j, tokenizer_to_json P g = Ok j /\ forall j', rearranged j j' -> exists l q m',
      j' = JObj l /\ each_field (part P) parts0 l = Ok (mkParts (g_truncation g) (g_padding g) (av_save (g_added g)) (g_normalizer g) (g_pre g) q (g_decoder g) (Some m')) /\
      same_option same_proc (g_post g) q /\ same_model (g_model g) m'.
  Proof using.
    intros PO (V1 & V2 & V3 & V4 & V5 & V6 & V7) MV ND E. unfold tokenizer_to_json. rewrite E. cbn [bind]. eexists. split; [reflexivity|]. intros j' R.
    assert (Q : exists l l'', j' = JObj l'' /\ Forall2 (fun a b => fst a = fst b /\ rearranged (snd a) (snd b))
      [(key "version", JStr (key "1.0")); (key "truncation", of_option of_truncation (g_truncation g));
              (key "padding", of_option of_padding (g_padding g)); (key "added_tokens", JArr (map of_added (av_save (g_added g))));
              (key "normalizer", of_option norm_to_json (g_normalizer g)); (key "pre_tokenizer", of_option pre_to_json (g_pre g));
              (key "post_processor", of_option (proc_to_json (pf_by_key P)) (g_post g));
              (key "decoder", of_option dec_to_json (g_decoder g)); (key "model", mv)] l /\ Permutation l l'').
    { inversion R as [| |? l l'' F Pm]; subst; [|eauto]. eexists _, _. split; [reflexivity|]. split; [|apply Permutation_refl].
      repeat (constructor; [split; [reflexivity|constructor]|]). constructor. }
    destruct Q as (l & l'' & -> & F & Pm). fields F.
    assert (H1 : as_option as_truncation x0 = Ok (g_truncation g)).
    { eapply reads_option; [|eassumption]. destruct (g_truncation g); [|exact Logic.I]. destruct V5. split; [discriminate|apply reads_truncation; assumption]. }
    assert (H2 : as_option as_padding x1 = Ok (g_padding g)).
    { eapply reads_option; [|eassumption]. destruct (g_padding g); [|exact Logic.I]. destruct V6 as (? & ? & ? & ?). split; [discriminate|apply reads_padding; assumption]. }
    assert (H3 : as_vec as_added x2 = Ok (av_save (g_added g))).
    { match goal with X : rearranged _ x2 |- _ => apply (reads_vec as_added of_added (fun x => x)) in X; [rewrite X, map_id; reflexivity|] end.
      apply Forall_forall. intros [i t] IN. apply reads_added. cbn [fst]. apply (V7 i t). apply (In_aget N.eqb N_eqb_eq); [exact ND|].
      eapply Permutation_in; [apply Permutation_sym; apply sort_by_id_perm|exact IN]. }
    assert (H4 : as_option (norm_of_json (pf_engines P)) x3 = Ok (g_normalizer g)).
    { eapply reads_option; [|eassumption]. destruct (g_normalizer g); [|exact Logic.I]. split; [apply norm_not_null|apply norm_round; exact V1]. }
    assert (H5 : as_option (pre_of_json (pf_engines P)) x4 = Ok (g_pre g)).
    { eapply reads_option; [|eassumption]. destruct (g_pre g); [|exact Logic.I]. split; [apply pre_not_null|intros j Rj; apply pre_round; assumption]. }
    assert (H7 : as_option (dec_of_json (pf_engines P)) x6 = Ok (g_decoder g)).
    { eapply reads_option; [|eassumption]. destruct (g_decoder g); [|exact Logic.I]. split; [apply dec_not_null|intros j Rj; apply dec_round; assumption]. }
    assert (H6 : exists q, as_option proc_of_json x5 = Ok q /\ same_option same_proc (g_post g) q).
    { destruct (g_post g) as [c|]; cbn [of_option when] in *.
      - match goal with X : rearranged _ x5 |- _ => rewrite (as_option_value _ _ _ (proc_not_null _ _) X); destruct (proc_round _ (po_key _ PO) c V3 x5 X) as (c' & -> & S) end.
        exists (Some c'). split; [reflexivity|exact S].
      - match goal with X : rearranged _ x5 |- _ => apply re_null in X; subst end. exists None. split; [reflexivity|exact Logic.I]. }
    destruct H6 as (q & H6 & SQ). match goal with X : rearranged mv _ |- _ => destruct (MV _ X) as (m' & H8 & SM) end.
    exists l'', q, m'. split; [reflexivity|]. split; [|auto].
    set (T := mkParts (g_truncation g) (g_padding g) (av_save (g_added g)) (g_normalizer g) (g_pre g) q (g_decoder g) (Some m')).
    rewrite (each_put T).
    - f_equal. unfold taken, pick_in. rewrite !(has_perm _ _ _ Pm) by reflexivity. reflexivity.
    - intros kv IN st. apply (Permutation_in _ (Permutation_sym Pm)) in IN. cbn [In] in IN.
      repeat destruct IN as [IN|IN]; try contradiction; subst kv; cbn [fst].
      + apply part_version. reflexivity.
      + apply part_truncation. exact H1.
      + apply part_padding. exact H2.
      + apply part_tokens. exact H3.
      + apply part_normalizer. exact H4.
      + apply part_pre. exact H5.
      + apply part_post. exact H6.
      + apply part_decoder. exact H7.
      + eapply part_model; [exact H8|reflexivity].
  Qed.
End parts.

(** ** The loaded tokenizer *)
Lemma fold_aset_get : forall (l base : list (str * N)) t, NoDup (map fst l) ->
  aget str_eqb t (fold_left (fun acc ti => aset str_eqb (fst ti) (snd ti) acc) l base) = match aget str_eqb t l with Some i => Some i | None => aget str_eqb t base end.
Proof.
  induction l as [|[c i] l IH]; intros base t D; [reflexivity|]. cbn [fold_left fst snd map] in *. inversion D as [|? ? NI D']; subst. rewrite IH by exact D'.
  rewrite (aget_aset str_eqb str_eqb_eq). cbn [aget]. destruct (str_eqb t c) eqn:E; [|reflexivity]. apply str_eqb_eq in E. subst c.
  destruct (aget str_eqb t l) eqn:G; [|reflexivity]. exfalso. apply NI. apply (aget_In str_eqb str_eqb_eq) in G. apply (in_map fst) in G. exact G.
Qed.

Lemma str_aget_perm {A} (l l' : list (str * A)) : NoDup (map fst l) -> NoDup (map fst l') -> (forall i, aget str_eqb i l' = aget str_eqb i l) -> Permutation l l'.
Proof.
  intros D D' H. apply NoDup_Permutation; [eapply NoDup_map_inv; exact D|eapply NoDup_map_inv; exact D'|]. intros [i a]. split; intros I.
  - apply (aget_In str_eqb str_eqb_eq). rewrite H. apply (In_aget str_eqb str_eqb_eq); assumption.
  - apply (aget_In str_eqb str_eqb_eq). rewrite <- H. apply (In_aget str_eqb str_eqb_eq); assumption.
Qed.

Lemma str_mem_ext t l l' : (In t l' <-> In t l) -> str_mem t l' = str_mem t l.
Proof.
  intros H. unfold str_mem. apply eq_true_iff_eq. rewrite !existsb_exists. split; intros (x & I & E); apply str_eqb_eq in E; subst x; exists t; (split; [apply H; exact I|apply str_eqb_refl]).
Qed.

Section loaded.
  Context {W : Type} (P : platform W) (g : config W) (m' : @model W) (q : option proc_config) (av' : added_vocab).
  Context (MS : model_sound P (g_model g)) (SM : same_model (g_model g) m') (SQ : same_option same_proc (g_post g) q).
  Context (LV : loaded_vocab (g_added g) av') (KE : NoDup (map fst (av_map (g_added g)))) (ES : av_encode_special (g_added g) = false).
  Definition loaded_config := mkConfig (g_normalizer g) (g_pre g) m' q (g_decoder g) av' (g_truncation g) (g_padding g).

  Lemma loaded_alike : alike_tokenizers (runtime P g) (runtime P loaded_config).
  Proof using MS SM SQ LV ES.
    assert (X : forall c c', same_proc c c' -> (forall p, added_tokens (proc_of c') p = added_tokens (proc_of c) p) /\ (forall w e e2 a, process w (proc_of c') e e2 a = process w (proc_of c) e e2 a)) by (intros; apply C71_processor_alike; assumption).
    constructor; cbn.
    - reflexivity.
    - intros s. apply extract_ext; [apply (lv_map_r _ _ LV)|apply (lv_encode _ _ LV)|exact ES|apply (lv_trie _ _ LV)|apply (lv_ntrie _ _ LV)].
    - reflexivity.
    - intros s. apply same_model_tokenize; assumption.
    - intros p. unfold n_added. cbn. destruct (g_post g) as [c|], q as [c'|]; try contradiction; [|reflexivity]. cbn. apply (proj1 (X _ _ SQ)).
    - intros e p a. unfold process_step. cbn. destruct (g_post g) as [c|], q as [c'|]; try contradiction; [|reflexivity]. cbn. rewrite (proj2 (X _ _ SQ)). reflexivity.
    - reflexivity.
    - reflexivity.
  Qed.

  Lemma loaded_same : same_answers P g loaded_config.
  Proof using MS SM SQ LV KE ES.
    pose proof (same_model_vocab P _ _ MS SM) as [SV1 SV2 SV3 SV4]. pose proof loaded_alike as AL.
    assert (TI : forall i, tk_id_to_token (model_vocabulary m') av' i = tk_id_to_token (model_vocabulary (g_model g)) (g_added g) i).
    { intros i. unfold tk_id_to_token, av_simple_id_to_token. rewrite (lv_map_r _ _ LV), (lv_cache _ _ LV), SV2. reflexivity. }
    assert (SP : forall t, av_is_special av' t = av_is_special (g_added g) t) by (intros t; apply str_mem_ext; apply (lv_special _ _ LV)).
    constructor; cbn [loaded_config g_model g_added g_truncation g_padding]; try reflexivity.
    - intros. apply encode_ext. exact AL.
    - intros. apply encode_batch_ext. exact AL.
    - intros skip ids. unfold decode_ids. cbn [loaded_config g_model g_added g_decoder]. unfold AddedModel.decode, AddedModel.decode_tokens.
      erewrite flat_map_ext; [reflexivity|]. intros i. cbv beta. rewrite TI. destruct (tk_id_to_token _ _ i); [|reflexivity]. rewrite SP. reflexivity.
    - intros t. unfold tk_token_to_id, av_token_to_id. rewrite (lv_map _ _ LV), SV1. reflexivity.
    - exact TI.
    - intros b t. unfold get_vocab. destruct b; [|apply SV3]. rewrite !fold_aset_get by (first [exact KE|apply (lv_keys _ _ LV)]). rewrite (lv_map _ _ LV), SV3. reflexivity.
    - intros b. unfold get_vocab_size. rewrite SV4. destruct b; [|reflexivity].
      pose proof (str_aget_perm _ _ KE (lv_keys _ _ LV) (lv_map _ _ LV)) as PM. rewrite (Permutation_length PM).
      erewrite (filter_ext (fun ti => match mv_token_to_id (model_vocabulary m') (fst ti) with Some _ => true | None => false end)) by (intros ti; rewrite SV1; reflexivity).
      rewrite (Permutation_length (filter_perm (fun ti => match mv_token_to_id (model_vocabulary (g_model g)) (fst ti) with Some _ => true | None => false end) _ _ PM)). reflexivity.
    - apply (lv_map_r _ _ LV).
    - exact SP.
  Qed.
End loaded.

Lemma tokenizer_saved {W} (P : platform W) m g ts : platform_ok P -> model_sound P m -> made P m g ts -> consistent ts -> parts_valid P g ->
  exists j, tokenizer_to_json P g = Ok j /\ forall j', rearranged j j' ->
    exists m' q av', tokenizer_of_json P j' = Ok (loaded_config g m' q av') /\ model_sound P (g_model g) /\ same_model (g_model g) m' /\ same_option same_proc (g_post g) q /\
      loaded_vocab (g_added g) av' /\ NoDup (map fst (av_map (g_added g))).
Proof.
  intros PO MS MD CO PV. pose proof (sound_ok P m MS) as MO. pose proof (made_facts P m MO (proj1 (proj2 MS)) g ts MD CO) as [A B C D E]. subst m.
  destruct (C66_saved (pf_arith P) (pf_floats P) (pf_by_rank P) (g_model g) (po_rank _ PO) (po_floats _ PO) (proj1 MS)) as (mv & EM & HM).
  destruct (saved_parts P g mv PO PV) as (j & EJ & HJ); [|apply (ai_keys_r _ _ B)|exact EM|].
  { intros j R. destruct (HM j R) as (m' & X & _ & Y). eauto. }
  exists j. split; [exact EJ|]. intros j' R. destruct (HJ j' R) as (l & q & m' & -> & EF & SQ & SM).
  destruct (load_clean (pf_build P) _ (norm_fun P g) (g_added g) MO (proj1 (proj2 MS)) B C E (po_order _ PO) (po_distinct _ PO)) as (av' & n & EL & LV).
  exists m', q, av'. split; [|split; [exact MS|split; [exact SM|split; [exact SQ|split; [exact LV|apply (ai_keys _ _ B)]]]]].
  unfold tokenizer_of_json. rewrite EF. cbn [bind pa_model pa_normalizer pa_pre pa_post pa_decoder pa_truncation pa_padding pa_tokens].
  match goal with |- context [norm_fun P ?x] => change (norm_fun P x) with (norm_fun P g) end.
  unfold av_load. rewrite (add_tokens_ext _ (model_vocabulary (g_model g))); [|split; apply (same_model_vocab P _ _ MS SM)].
  unfold av_load in EL. rewrite EL. reflexivity.
Qed.
