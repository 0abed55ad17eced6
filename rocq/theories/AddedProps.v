(** Theorems about added tokens: C25-C30, C57. *)
From Verif Require Import Base StrBytes ListFacts AMap EncodingModel NormModel NormSpec NormProofs NormProps
  PreTokModel PreTokSpec PreTokProofs PreTokProps AddedModel AddedSpec AddedProofs AddedProofs2 AddedProofs3 AddedProofs4.

(** A model given by its table, for the examples. *)
Fixpoint find_id (i : N) (l : list (str * N)) : option str :=
  match l with [] => None | (t, j) :: l' => if N.eqb i j then Some t else find_id i l' end.
Definition table_model (l : list (str * N)) : model_vocab :=
  mkModel (fun t => aget str_eqb t l) (fun i => find_id i l) l (length l).

Lemma table_model_ok l : NoDup (map fst l) -> NoDup (map snd l) -> model_ok (table_model l).
Proof.
  intros D1 D2. constructor; cbn.
  - exact D1.
  - intros t i. split; [apply (aget_In str_eqb str_eqb_eq)|apply (In_aget str_eqb str_eqb_eq); exact D1].
  - intros t i. transitivity (In (t, i) l).
    + clear D1. induction l as [|[u j] l IH]; cbn; [split; [discriminate|intros []]|]. cbn in D2. inversion D2 as [|? ? X Y]; subst.
      destruct (N.eqb i j) eqn:E.
      * apply N.eqb_eq in E. subst j. split; [intros H; injection H as ->; auto|]. intros [H|H]; [injection H as ->; reflexivity|].
        exfalso. apply X. apply (in_map snd) in H. exact H.
      * apply N.eqb_neq in E. rewrite IH by exact Y. split; [auto|]. intros [H|H]; [injection H as _ ->; congruence|exact H].
    + split; [apply (In_aget str_eqb str_eqb_eq); exact D1|apply (aget_In str_eqb str_eqb_eq)].
  - reflexivity.
Qed.

Definition all_ok (_ : list (str * N)) : bool := true.
Definition no_norm (_ : str -> option str) : Prop := False.
Definition plain_token (c : str) : added_token := mkAdded c false false false false false.
Definition special_token (c : str) : added_token := mkAdded c false false false false true.

(** ** C25 *)
(** Over any model: whatever happens later, a token keeps its id. *)
Theorem C25_ids_never_change : forall build m av av' t i,
  later build m av av' -> tk_token_to_id m av t = Some i -> tk_token_to_id m av' t = Some i.
Proof. intros build m av av' t i L H. eapply later_keeps; eauto. Qed.

Theorem C25_model_tokens_keep_their_id : forall build m NF av offered taken t i,
  added_history build m NF av offered taken -> mv_token_to_id m t = Some i -> tk_token_to_id m av t = Some i.
Proof.
  intros build m NF av offered taken t i H E. unfold tk_token_to_id, av_token_to_id.
  destruct (aget str_eqb t (av_map av)) as [j|] eqn:EJ; [|exact E].
  destruct (keys_history _ _ _ _ _ _ H) as [_ K]. rewrite (K _ _ EJ _ E). reflexivity.
Qed.

Theorem C25_distinct_ids : forall build m NF av offered taken t u i,
  model_ok m -> dense m -> added_history build m NF av offered taken ->
  tk_token_to_id m av t = Some i -> tk_token_to_id m av u = Some i -> t = u.
Proof.
  intros build m NF av offered taken t u i MO D H Ht Hu. pose proof (history_inv _ _ _ _ _ _ MO D H) as I.
  unfold tk_token_to_id, av_token_to_id in *.
  assert (X : forall c j, aget str_eqb c (av_map av) = Some j -> exists tok, aget N.eqb j (av_map_r av) = Some tok /\ at_content tok = c) by apply (ai_fwd _ _ I).
  destruct (aget str_eqb t (av_map av)) as [j|] eqn:ET; destruct (aget str_eqb u (av_map av)) as [k|] eqn:EU.
  - injection Ht as ->. injection Hu as ->. destruct (X _ _ ET) as (a & A1 & A2). destruct (X _ _ EU) as (b & B1 & B2). congruence.
  - injection Ht as ->. destruct (ai_id _ _ I _ _ ET) as [A|[_ A]].
    + apply (mo_back _ MO) in A, Hu. congruence.
    + apply D in Hu. lia.
  - injection Hu as ->. destruct (ai_id _ _ I _ _ EU) as [A|[_ A]].
    + apply (mo_back _ MO) in A, Ht. congruence.
    + apply D in Ht. lia.
  - apply (mo_back _ MO) in Ht, Hu. congruence.
Qed.

(** Ids given to tokens that are not in the model are not ids of the model. *)
Theorem C25_new_ids_are_new : forall build m NF av offered taken t i,
  model_ok m -> dense m -> added_history build m NF av offered taken ->
  mv_token_to_id m t = None -> tk_token_to_id m av t = Some i ->
  mv_id_to_token m i = None /\ (N.of_nat (mv_size m) <= i)%N.
Proof.
  intros build m NF av offered taken t i MO D H N Ht. pose proof (history_inv _ _ _ _ _ _ MO D H) as I.
  unfold tk_token_to_id, av_token_to_id in Ht. destruct (aget str_eqb t (av_map av)) as [j|] eqn:E; [|congruence].
  injection Ht as ->. destruct (ai_id _ _ I _ _ E) as [A|[_ A]]; [congruence|]. split; [|exact A].
  destruct (mv_id_to_token m i) as [u|] eqn:EU; [|reflexivity]. apply (mo_back _ MO) in EU. apply D in EU. lia.
Qed.

(** Tokens that were added have an id. *)
Theorem C25_added_tokens_have_ids : forall build m NF av offered taken t,
  model_ok m -> dense m -> added_history build m NF av offered taken ->
  In t taken -> at_content t <> [] -> exists i, tk_token_to_id m av (at_content t) = Some i.
Proof.
  intros build m NF av offered taken t MO D H Ht NE. destruct (taken_known _ _ _ _ _ _ MO D H t Ht NE) as (i & Hi).
  exists i. unfold tk_token_to_id, av_token_to_id. rewrite Hi. reflexivity.
Qed.

(** Reading the id back gives the token, or a form of it given by a normalizer in use. *)
Theorem C25_id_to_token : forall build m NF av offered taken t i,
  model_ok m -> dense m -> added_history build m NF av offered taken ->
  tk_token_to_id m av t = Some i ->
  exists n, tk_id_to_token m av i = Some n /\ (n = t \/ exists f, NF f /\ f t = Some n).
Proof.
  intros build m NF av offered taken t i MO D H Ht. pose proof (history_inv _ _ _ _ _ _ MO D H) as I.
  pose proof (cache_history _ _ _ _ _ _ MO D H) as C.
  unfold tk_token_to_id, av_token_to_id in Ht. unfold tk_id_to_token, av_simple_id_to_token.
  destruct (aget str_eqb t (av_map av)) as [j|] eqn:E.
  - injection Ht as ->. destruct (ai_fwd _ _ I _ _ E) as (tok & A & B). rewrite A.
    destruct (aget N.eqb i (av_cache av)) as [n|] eqn:EC.
    + destruct (C _ _ EC) as (tok' & f & C1 & C2 & C3). exists n. split; [reflexivity|]. right. exists f. split; [exact C2|congruence].
    + exists (at_content tok). split; [reflexivity|]. left. exact B.
  - destruct (aget N.eqb i (av_map_r av)) as [tok|] eqn:ER.
    + exfalso. destruct (ai_bwd _ _ I _ _ ER) as [A _]. destruct (ai_id _ _ I _ _ A) as [B|[_ B]].
      * apply (mo_back _ MO) in B, Ht. rewrite B in Ht. injection Ht as Ht. congruence.
      * apply D in Ht. lia.
    + exists t. apply (mo_back _ MO) in Ht. split; [exact Ht|left; reflexivity].
Qed.

Theorem C25_round_trip_without_normalizer : forall build m av offered taken t i,
  model_ok m -> dense m -> added_history build m no_norm av offered taken ->
  tk_token_to_id m av t = Some i -> tk_id_to_token m av i = Some t.
Proof.
  intros build m av offered taken t i MO D H Ht. destruct (C25_id_to_token _ _ _ _ _ _ _ _ MO D H Ht) as (n & E & [->|(f & [] & _)]). exact E.
Qed.

(** With a normalizer the round trip is lost: "A" added as a normalised token over a
    lowercasing normalizer is read back as "a". *)
Definition lower_all (s : str) : option str := Some (map (fun c => if N.eqb c 65 then 97%N else c) s).

Theorem C25_round_trip_refuted :
  exists m av offered taken t i, model_ok m /\ dense m /\
    added_history all_ok m (fun f => f = lower_all) av offered taken /\
    tk_token_to_id m av t = Some i /\ tk_id_to_token m av i <> Some t.
Proof.
  exists (table_model [([98]%N, 0%N)]). eexists. exists [mkAdded [65]%N false false false true false], [mkAdded [65]%N false false false true false], [65]%N, 1%N.
  split; [apply table_model_ok; repeat constructor; cbn; intuition discriminate|]. split.
  { intros t i H. cbn in *. destruct (str_eqb t [98%N]); [injection H as <-; cbn; lia|discriminate]. }
  split.
  - eapply (ah_add _ _ _ av_new [] [] (Some lower_all)); [apply ah_new|intros f H; injection H as <-; reflexivity|vm_compute; reflexivity].
  - vm_compute. split; [reflexivity|discriminate].
Qed.

(** If the ids of the model have gaps, a new token can get the id of a model token. *)
Theorem C25_sparse_model_refuted :
  exists m av offered taken t u i, model_ok m /\ added_history all_ok m no_norm av offered taken /\
    t <> u /\ tk_token_to_id m av t = Some i /\ tk_token_to_id m av u = Some i.
Proof.
  exists (table_model [([97]%N, 0%N); ([98]%N, 2%N)]). eexists. exists [plain_token [120]%N], [plain_token [120]%N], [98]%N, [120]%N, 2%N.
  split; [apply table_model_ok; repeat constructor; cbn; intuition discriminate|]. split.
  - eapply (ah_add _ _ _ av_new [] [] None); [apply ah_new|discriminate|vm_compute; reflexivity].
  - split; [discriminate|]. vm_compute. auto.
Qed.

Definition sample_model : model_vocab := table_model [([97]%N, 0%N); ([98]%N, 1%N)].
Definition sample_tokens : list added_token :=
  [special_token [60; 115; 62]%N; plain_token [98]%N; plain_token []; plain_token [120; 121]%N; special_token [60; 115; 62]%N].
Definition sample_av : added_vocab := fst (add_tokens all_ok sample_model None sample_tokens av_new).

Lemma sample_ok : model_ok sample_model /\ dense sample_model.
Proof.
  split; [apply table_model_ok; repeat constructor; cbn; intuition discriminate|].
  intros t i H. cbn in *. destruct (str_eqb t [97%N]); [injection H as <-; cbn; lia|].
  destruct (str_eqb t [98%N]); [injection H as <-; cbn; lia|discriminate].
Qed.

Lemma sample_history : added_history all_ok sample_model no_norm sample_av sample_tokens sample_tokens.
Proof. eapply (ah_add _ _ _ av_new [] [] None); [apply ah_new|discriminate|vm_compute; reflexivity]. Qed.

Example C25_example :
  model_ok sample_model /\ dense sample_model /\ added_history all_ok sample_model no_norm sample_av sample_tokens sample_tokens /\
  map (tk_token_to_id sample_model sample_av) [[97]; [98]; [60; 115; 62]; [120; 121]]%N = [Some 0; Some 1; Some 2; Some 3]%N.
Proof. split; [apply sample_ok|]. split; [apply sample_ok|]. split; [apply sample_history|]. vm_compute. reflexivity. Qed.

(** ** C26 *)
(** The count is the number of tokens that are new when their turn comes, and
    afterwards each content is registered with the last new token. *)
Theorem C26_count : forall build m NF av offered taken norm ts av' n,
  model_ok m -> dense m -> added_history build m NF av offered taken ->
  add_tokens build m norm ts av = (av', Some n) ->
  exists after, adding (registered av) ts n after /\ forall c, registered av' c = after c.
Proof.
  intros build m NF av offered taken norm ts av' n MO D H A. eapply add_tokens_adding; eauto. eapply history_inv; eauto.
Qed.

Theorem C26_distinct_new_tokens_all_count : forall build m NF av offered taken norm ts av' n,
  model_ok m -> dense m -> added_history build m NF av offered taken ->
  NoDup (map at_content ts) -> (forall t, In t ts -> at_content t <> [] /\ registered av (at_content t) = None) ->
  add_tokens build m norm ts av = (av', Some n) -> n = length ts.
Proof.
  intros build m NF av offered taken norm ts av' n MO D H ND F A.
  destruct (C26_count _ _ _ _ _ _ _ _ _ _ MO D H A) as (after & AD & _). eapply adding_fresh; eauto.
Qed.

(** Adding the same list again (with any normalizer) returns 0 and changes nothing. *)
Theorem C26_again : forall build m NF av offered taken norm norm' ts av' n,
  model_ok m -> dense m -> added_history build m NF av offered taken -> consistent ts ->
  add_tokens build m norm ts av = (av', Some n) -> add_tokens build m norm' ts av' = (av', Some 0).
Proof.
  intros build m NF av offered taken norm norm' ts av' n MO D H CO A. eapply add_tokens_again; eauto. eapply history_inv; eauto.
Qed.

(** Without [consistent] it does: two tokens with one content and other flags. *)
Theorem C26_again_refuted :
  exists ts av' n k, add_tokens all_ok sample_model None ts av_new = (av', Some n) /\
    snd (add_tokens all_ok sample_model None ts av') = Some k /\ k <> 0.
Proof.
  exists [plain_token [120]%N; special_token [120]%N]. eexists. exists 2, 2. split; [vm_compute; reflexivity|]. split; [vm_compute; reflexivity|lia].
Qed.

Example C26_example :
  consistent sample_tokens /\ snd (add_tokens all_ok sample_model None sample_tokens av_new) = Some 3 /\
  add_tokens all_ok sample_model None sample_tokens sample_av = (sample_av, Some 0).
Proof.
  split; [|split; vm_compute; reflexivity].
  intros t u Ht Hu E. cbn in Ht, Hu. intuition subst; try reflexivity; discriminate.
Qed.

(** ** C27 *)
(** [find_matches] never panics and returns consecutive ranges covering the
    text; the splits made from them show the text piece by piece. *)
Theorem C27_partition : forall is_space is_word build m NF av offered taken trie ns,
  model_ok m -> dense m -> added_history build m NF av offered taken ->
  (trie = av_trie av \/ trie = av_ntrie av) ->
  (forall pats, trie = Some pats -> strip_safe is_space av pats) ->
  aligned ns ->
  exists l sps,
    find_matches is_space is_word av (n_normalized ns) trie = Ok l /\
    tiling 0 (blen (n_normalized ns)) (map snd l) /\
    split_with_indices is_space is_word av trie ns = Ok sps /\
    Forall2 (fun x sp =>
      str_get (n_normalized ns) (fst (snd x)) (snd (snd x)) = Some (n_normalized (sp_norm sp)) /\
      sp_tokens sp = option_map (fun i => [mkTok i (n_normalized (sp_norm sp)) (0, blen (n_normalized (sp_norm sp)))]) (fst x)) l sps /\
    cut_into (fun _ => False) ns (map sp_norm sps).
Proof.
  intros is_space is_word build m NF av offered taken trie ns MO D H HT SS A.
  pose proof (tries_known _ _ (tries_history _ _ _ _ _ _ MO D H)) as [K1 K2].
  assert (ST : safe_trie is_space av trie).
  { intros pats E. split; [apply SS; exact E|]. destruct HT as [-> | ->]; auto. }
  destruct (find_matches_tiles is_space is_word av (n_normalized ns) trie ST) as (l & E & [T F] & _).
  destruct (split_with_indices_cuts is_space is_word av trie ns A ST) as (l' & sps & E1 & E2 & F2 & C).
  rewrite E in E1. injection E1 as <-. exists l, sps. split; [exact E|]. split; [exact T|]. split; [exact E2|]. split; [|exact C].
  eapply Forall2_impl; [|exact F2]. intros [[i|] o] sp [X Y]; split; auto.
Qed.

(** The two passes over a whole text: no panic, every split is placed at its
    original text; without a normalizer the texts concatenate to the input. *)
Theorem C27_extract : forall is_space is_word build m NF av offered taken norm s,
  model_ok m -> dense m -> added_history build m NF av offered taken ->
  (forall pats, av_trie av = Some pats \/ av_ntrie av = Some pats -> strip_safe is_space av pats) ->
  (forall ns, aligned ns -> aligned (norm ns) /\ same_source ns (norm ns)) ->
  exists pt, extract_and_normalize is_space is_word av norm s = Ok pt /\ pt_original pt = s /\
    Forall (fun sp => aligned (sp_norm sp) /\ located s (sp_norm sp)) (pt_splits pt).
Proof.
  intros is_space is_word build m NF av offered taken norm s MO D H SS NO.
  pose proof (tries_known _ _ (tries_history _ _ _ _ _ _ MO D H)) as [K1 K2].
  destruct (extract_inside is_space is_word av norm s) as (pt & E & I).
  - intros pats P. split; auto.
  - intros pats P. split; auto.
  - exact NO.
  - exists pt. split; [exact E|]. destruct (C21_inside_any_history _ _ I) as [O F]. split; [exact O|].
    eapply Forall_impl; [|exact F]. cbn. intros sp (X & Y & _). auto.
Qed.

Theorem C27_extract_lossless : forall is_space is_word build m NF av offered taken s pt,
  model_ok m -> dense m -> added_history build m NF av offered taken ->
  (forall pats, av_trie av = Some pats \/ av_ntrie av = Some pats -> strip_safe is_space av pats) ->
  extract_and_normalize is_space is_word av (fun ns => ns) s = Ok pt -> concat (split_texts pt) = s.
Proof.
  intros is_space is_word build m NF av offered taken s pt MO D H SS E.
  pose proof (tries_known _ _ (tries_history _ _ _ _ _ _ MO D H)) as [K1 K2].
  assert (C : cut_history (fun _ => False) (nfrom s) pt).
  { eapply extract_cuts; [| |exact E]; intros pats P; split; auto. }
  rewrite (C21_lossless _ _ (nfrom_aligned s) C). reflexivity.
Qed.

(** Without the condition on whitespace: "<a>" absorbs the space on its right,
    where the token " b" also matches; the two ranges overlap. *)
Definition sp32 (c : char) : bool := N.eqb c 32.
Definition az (c : char) : bool := N.leb 97 c && N.leb c 122.
Definition rstrip_tokens : list added_token := [mkAdded [60]%N false false true false false; plain_token [32; 98]%N].

Theorem C27_overlap_refuted :
  exists av s l, added_history all_ok sample_model no_norm av rstrip_tokens rstrip_tokens /\
    find_matches sp32 az av s (av_trie av) = Ok l /\ ~ tiling 0 (blen s) (map snd l).
Proof.
  exists (fst (add_tokens all_ok sample_model None rstrip_tokens av_new)), [60; 32; 98]%N. eexists. split; [|split].
  - eapply (ah_add _ _ _ av_new [] [] None); [apply ah_new|discriminate|vm_compute; reflexivity].
  - vm_compute. reflexivity.
  - cbn. intros H. inversion H as [|a b c l L H1]; subst. inversion H1.
Qed.

(** With a left-stripping token in the place of the second one, extraction panics. *)
Definition panic_tokens : list added_token := [mkAdded [60]%N false false true false false; mkAdded [32]%N false true false false false].

Theorem C27_panic_refuted :
  exists av s, added_history all_ok sample_model no_norm av panic_tokens panic_tokens /\
    extract_and_normalize sp32 az av (fun ns => ns) s = Panic.
Proof.
  exists (fst (add_tokens all_ok sample_model None panic_tokens av_new)), [60; 32; 32; 98]%N. split.
  - eapply (ah_add _ _ _ av_new [] [] None); [apply ah_new|discriminate|vm_compute; reflexivity].
  - vm_compute. reflexivity.
Qed.

(** ** C28 *)
(** The token ranges are exactly those of the leftmost-longest matches that
    the flags allow, each extended over whitespace only where its flags allow. *)
Theorem C28_matches : forall is_space is_word build m NF av offered taken trie pats s,
  model_ok m -> dense m -> added_history build m NF av offered taken ->
  (trie = av_trie av \/ trie = av_ntrie av) -> trie = Some pats -> strip_safe is_space av pats -> s <> [] ->
  exists ms l,
    leftmost_longest pats 0 s ms /\
    find_matches is_space is_word av s trie = Ok l /\
    picks (reportable is_word av s) (reported_as is_space av s) ms (token_spans l) /\
    (forall a b, In (None, (a, b)) l -> a < b) /\
    (forall i a b t, In (Some i, (a, b)) l -> aget N.eqb i (av_map_r av) = Some t -> at_lstrip t = true ->
       char_before is_space s a -> exists j a', In (Some j, (a', a)) l).
Proof.
  intros is_space is_word build m NF av offered taken trie pats s MO D H HT -> SS NE.
  pose proof (tries_known _ _ (tries_history _ _ _ _ _ _ MO D H)) as [K1 K2].
  assert (KP : known_patterns av pats) by (destruct HT as [HT|HT]; auto).
  destruct (find_matches_spec is_space is_word av pats s NE SS KP) as (ms & l & LL & E & X1 & X2 & X3 & X4 & X5).
  exists ms, l. auto.
Qed.

(** What is searched for: in the raw text, contents of the tokens; in the
    normalised text, contents or their normalised forms. *)
Theorem C28_patterns : forall build m NF av offered taken pats p i,
  model_ok m -> dense m -> added_history build m NF av offered taken -> In (p, i) pats ->
  (av_trie av = Some pats -> tk_token_to_id m av p = Some i) /\
  (av_ntrie av = Some pats -> exists c, tk_token_to_id m av c = Some i /\ (c = p \/ exists f, NF f /\ f c = Some p)).
Proof.
  intros build m NF av offered taken pats p i MO D H HI. destruct (tries_history _ _ _ _ _ _ MO D H) as [T1 T2].
  pose proof (history_inv _ _ _ _ _ _ MO D H) as I. split; intros E.
  - destruct (T1 _ _ _ E HI) as (t & A & B). destruct (ai_bwd _ _ I _ _ A) as [M _]. subst p.
    unfold tk_token_to_id, av_token_to_id. rewrite M. reflexivity.
  - destruct (T2 _ _ _ E HI) as (t & A & B). destruct (ai_bwd _ _ I _ _ A) as [M _]. exists (at_content t). split; [|exact B].
    unfold tk_token_to_id, av_token_to_id. rewrite M. reflexivity.
Qed.

(** After a successful addition every token that is not normalised is searched for. *)
Theorem C28_every_token_searched : forall build m NF av offered taken norm ts av' n c t i,
  model_ok m -> dense m -> added_history build m NF av offered taken -> (forall f, norm = Some f -> NF f) ->
  add_tokens build m norm ts av = (av', Some n) ->
  registered av' c = Some t -> tk_token_to_id m av' c = Some i -> at_normalized t = false ->
  exists pats, av_trie av' = Some pats /\ In (c, i) pats.
Proof.
  intros build m NF av offered taken norm ts av' n c t i MO D H HN A R HI NT.
  pose proof (history_inv _ _ _ _ _ _ MO D (ah_add _ _ _ _ _ _ _ _ _ _ H HN A)) as I'.
  pose proof (history_inv _ _ _ _ _ _ MO D H) as I0.
  unfold registered in R. unfold tk_token_to_id, av_token_to_id in HI.
  destruct (aget str_eqb c (av_map av')) as [j|] eqn:E; [|discriminate]. injection HI as ->.
  destruct (ai_fwd _ _ I' _ _ E) as (t' & R' & EC). rewrite R in R'. injection R' as <-.
  unfold add_tokens in A. destruct (add_loop m norm ts av (first_next_id av m) 0) as [a1 [k|]] eqn:EL; [|discriminate].
  destruct (add_loop_inv _ _ _ _ _ _ _ _ MO D I0 (first_next_free _ _ D I0) EL) as [I1 _].
  destruct (av_refresh build a1) as [a2 ok] eqn:ER. destruct ok; [|discriminate]. injection A as <- _.
  destruct (av_refresh_core _ _ _ _ ER) as ((C1 & C2 & C3) & _). rewrite C2 in R.
  assert (P : In (c, i) (plain_pairs a1)) by (apply (plain_pairs_in m _ _ _ I1); eauto).
  unfold av_refresh in ER. destruct (is_nil (plain_pairs a1) || build (plain_pairs a1)); [|discriminate].
  destruct (is_nil (normalized_pairs a1) || build (normalized_pairs a1)); [|discriminate]. injection ER as <-. cbn [av_trie].
  destruct (plain_pairs a1) eqn:EP; [destruct P|]. exists (p :: l). split; [reflexivity|exact P].
Qed.

(** " <s> ab<s>b xy" with "<s>" special and stripping both sides and "b" a single word. *)
Definition flag_tokens : list added_token :=
  [mkAdded [60; 115; 62]%N false true true false true; mkAdded [98]%N true false false false false; plain_token [120; 121]%N].
Definition flag_av : added_vocab := fst (add_tokens all_ok sample_model None flag_tokens av_new).

Example C28_example :
  added_history all_ok sample_model no_norm flag_av flag_tokens flag_tokens /\
  (exists pats, av_trie flag_av = Some pats /\ strip_safe sp32 flag_av pats) /\
  find_matches sp32 az flag_av [97; 32; 60; 115; 62; 32; 97; 98; 32; 98; 120; 121]%N (av_trie flag_av)
  = Ok [(None, (0, 1)); (Some 2%N, (1, 6)); (None, (6, 10)); (Some 3%N, (10, 12))] /\
  find_matches sp32 az flag_av [97; 32; 98]%N (av_trie flag_av) = Ok [(None, (0, 2)); (Some 1%N, (2, 3))].
Proof.
  split; [|split; [|split; vm_compute; reflexivity]].
  - eapply (ah_add _ _ _ av_new [] [] None); [apply ah_new|discriminate|vm_compute; reflexivity].
  - eexists. split; [vm_compute; reflexivity|]. right. intros p i c q HI ->. cbn in HI.
    destruct HI as [H|[H|[H|[]]]]; injection H as <- _ _; reflexivity.
Qed.

(** ** C29 *)
Theorem C29_vocab_size : forall build m NF av offered taken with_added,
  model_ok m -> added_history build m NF av offered taken ->
  get_vocab_size m av with_added = Ok (length (get_vocab m av with_added)) /\
  NoDup (map fst (get_vocab m av with_added)).
Proof.
  intros build m NF av offered taken w MO H. destruct (keys_history _ _ _ _ _ _ H) as [K _]. destruct w.
  - split; [apply vocab_size; assumption|]. unfold get_vocab. apply get_vocab_nodup. apply (mo_keys _ MO).
  - split; [cbn; rewrite (mo_size _ MO); reflexivity|apply (mo_keys _ MO)].
Qed.

(** The entries of [get_vocab] are the answers of [token_to_id]. *)
Theorem C29_vocab_entries : forall build m NF av offered taken t i,
  model_ok m -> added_history build m NF av offered taken ->
  (In (t, i) (get_vocab m av true) <-> tk_token_to_id m av t = Some i).
Proof.
  intros build m NF av offered taken t i MO H. destruct (keys_history _ _ _ _ _ _ H) as [K _].
  destruct (C29_vocab_size _ _ _ _ _ _ true MO H) as [_ ND].
  transitivity (aget str_eqb t (get_vocab m av true) = Some i).
  - split; [apply (In_aget str_eqb str_eqb_eq); exact ND|apply (aget_In str_eqb str_eqb_eq)].
  - unfold get_vocab, tk_token_to_id, av_token_to_id. rewrite get_vocab_lookup by exact K.
    destruct (aget str_eqb t (av_map av)); [reflexivity|]. apply aget_vocab. exact MO.
Qed.

Example C29_example : get_vocab_size sample_model sample_av true = Ok 4 /\ get_vocab_size sample_model sample_av false = Ok 2.
Proof. split; vm_compute; reflexivity. Qed.

(** ** C30 *)
(** The decoder receives the names of the known ids in order, without the
    special ones when asked; special are the contents that were once added
    as special tokens. *)
Theorem C30_decode : forall E build m NF av offered taken (decoder : option (list str -> res E str)) skip ids,
  added_history build m NF av offered taken ->
  exists (special : str -> Prop) (ts : list str),
    (forall c, special c -> exists t, In t offered /\ at_special t = true /\ at_content t = c) /\
    (forall t, In t taken -> at_special t = true -> at_content t <> [] -> special (at_content t)) /\
    feeds (tk_id_to_token m av) special skip ids ts /\
    decode m av decoder skip ids = match decoder with Some d => d ts | None => Ok (join_space ts) end.
Proof.
  intros E build m NF av offered taken decoder skip ids H. destruct (special_history _ _ _ _ _ _ H) as (_ & S1 & S2).
  exists (fun c => In c (av_special av)), (decode_tokens m av skip ids). split; [|split; [exact S2|split; [apply decode_feeds|reflexivity]]].
  intros c Hc. destruct (S1 c Hc) as (t & X & Y & Z & _). eauto.
Qed.

(** When all the calls succeeded, special means: added as special at some time. *)
Theorem C30_decode_successful : forall E build m NF av added (decoder : option (list str -> res E str)) skip ids,
  added_history build m NF av added added ->
  exists ts,
    feeds (tk_id_to_token m av) (fun c => exists t, In t added /\ at_special t = true /\ at_content t = c /\ c <> []) skip ids ts /\
    decode m av decoder skip ids = match decoder with Some d => d ts | None => Ok (join_space ts) end.
Proof.
  intros E build m NF av added decoder skip ids H. destruct (special_history _ _ _ _ _ _ H) as (_ & S1 & S2).
  exists (decode_tokens m av skip ids). split; [|reflexivity]. eapply feeds_ext; [|apply decode_feeds]. cbv beta. intros c. split.
  - apply S1.
  - intros (t & X & Y & <- & Z). auto.
Qed.

(** A token once special stays so for decoding, even if registered again as ordinary. *)
Theorem C30_unspecial_refuted :
  exists av taken i t, added_history all_ok sample_model no_norm av taken taken /\
    aget N.eqb i (av_map_r av) = Some t /\ at_special t = false /\ decode_tokens sample_model av true [i] = [].
Proof.
  exists (fst (add_tokens all_ok sample_model None [special_token [120]%N; plain_token [120]%N] av_new)),
         [special_token [120]%N; plain_token [120]%N], 2%N, (plain_token [120]%N).
  split; [|vm_compute; auto].
  eapply (ah_add _ _ _ av_new [] [] None); [apply ah_new|discriminate|vm_compute; reflexivity].
Qed.

(** A special token with a different normalised form is not skipped: the name
    that is looked up in the special set is the normalised one. *)
Theorem C30_normalized_special_refuted :
  exists av taken i t, added_history all_ok sample_model (fun f => f = lower_all) av taken taken /\
    aget N.eqb i (av_map_r av) = Some t /\ at_special t = true /\ decode_tokens sample_model av true [i] <> [].
Proof.
  exists (fst (add_tokens all_ok sample_model (Some lower_all) [mkAdded [65; 65]%N false false false true true] av_new)),
         [mkAdded [65; 65]%N false false false true true], 2%N, (mkAdded [65; 65]%N false false false true true).
  split; [|vm_compute; repeat split; discriminate].
  eapply (ah_add _ _ _ av_new [] [] (Some lower_all)); [apply ah_new|intros f Hf; injection Hf as <-; reflexivity|vm_compute; reflexivity].
Qed.

Example C30_example :
  added_history all_ok sample_model no_norm sample_av sample_tokens sample_tokens /\
  decode_tokens sample_model sample_av true [0; 2; 9; 3; 1]%N = [[97]; [120; 121]; [98]]%N /\
  @decode unit sample_model sample_av None false [0; 2; 9; 1]%N = Ok [97; 32; 60; 115; 62; 32; 98]%N.
Proof. split; [apply sample_history|]. split; vm_compute; reflexivity. Qed.

(** ** C57 *)
(** Loading what was saved, over the same model: the same ids and the same
    registered tokens; all of them are counted; special are the contents whose
    registered token is special. *)
Theorem C57_save_load : forall build build' m NF av offered taken norm av' n,
  model_ok m -> dense m -> added_history build m NF av offered taken ->
  av_load build' m norm (av_save av) = (av', Some n) ->
  (forall t, tk_token_to_id m av' t = tk_token_to_id m av t) /\
  (forall c, registered av' c = registered av c) /\
  (forall i, aget N.eqb i (av_map_r av') = aget N.eqb i (av_map_r av)) /\
  n = length (av_map_r av) /\
  (forall c, In c (av_special av') <-> exists t, registered av c = Some t /\ at_special t = true).
Proof.
  intros build build' m NF av offered taken norm av' n MO D H L. pose proof (history_inv _ _ _ _ _ _ MO D H) as I.
  destruct (load_save _ _ _ _ _ _ MO D I L) as [LD ->].
  assert (R : forall i, aget N.eqb i (av_map_r av') = aget N.eqb i (av_map_r av)).
  { intros i. destruct (aget N.eqb i (av_map_r av')) as [t|] eqn:E.
    - symmetry. apply (In_aget N.eqb N_eqb_eq); [apply (ai_keys_r _ _ I)|]. apply (ld_map_r _ _ _ LD). exact E.
    - destruct (aget N.eqb i (av_map_r av)) as [t|] eqn:E2; [|reflexivity]. apply (aget_In N.eqb N_eqb_eq) in E2. apply (ld_map_r _ _ _ LD) in E2. congruence. }
  assert (M : forall c, aget str_eqb c (av_map av') = aget str_eqb c (av_map av)).
  { assert (EQ : forall c i, aget str_eqb c (av_map av') = Some i <-> aget str_eqb c (av_map av) = Some i).
    { intros c i. rewrite (ld_map _ _ _ LD). split.
      - intros (t & X & <-). apply (ai_bwd _ _ I). apply (In_aget N.eqb N_eqb_eq); [apply (ai_keys_r _ _ I)|exact X].
      - intros X. destruct (ai_fwd _ _ I _ _ X) as (t & Y & Z). exists t. split; [apply (aget_In N.eqb N_eqb_eq); exact Y|exact Z]. }
    intros c. destruct (aget str_eqb c (av_map av')) as [i|] eqn:E.
    - symmetry. apply EQ. exact E.
    - destruct (aget str_eqb c (av_map av)) as [i|] eqn:E2; [|reflexivity]. apply EQ in E2. congruence. }
  assert (RG : forall c, registered av' c = registered av c).
  { intros c. unfold registered. rewrite M. destruct (aget str_eqb c (av_map av)); [apply R|reflexivity]. }
  split; [intros t; unfold tk_token_to_id, av_token_to_id; rewrite M; reflexivity|]. split; [exact RG|]. split; [exact R|]. split; [reflexivity|].
  intros c. rewrite (ld_special _ _ _ LD). split.
  - intros (i & t & X & Y & <-). exists t. split; [|exact Y]. apply (In_aget N.eqb N_eqb_eq) in X; [|apply (ai_keys_r _ _ I)].
    unfold registered. rewrite (proj1 (ai_bwd _ _ I _ _ X)). exact X.
  - intros (t & X & Y). unfold registered in X. destruct (aget str_eqb c (av_map av)) as [i|] eqn:E; [|discriminate].
    destruct (ai_fwd _ _ I _ _ E) as (t' & Z & W). exists i, t. split; [apply (aget_In N.eqb N_eqb_eq); exact X|]. split; [exact Y|congruence].
Qed.

(** Loading succeeds when the normalizer and the automaton builder do. *)
Theorem C57_load_succeeds : forall build m norm av,
  (forall f c, norm = Some f -> f c <> None) -> (forall l, build l = true) ->
  exists av' n, av_load build m norm (av_save av) = (av', Some n).
Proof. intros build m norm av T B. unfold av_load. apply add_tokens_total; assumption. Qed.

(** The names given back by [id_to_token] also survive, when they are those of
    the normalizer of the tokenizer (as after replacing its normalizer). *)
Theorem C57_names : forall build build' m NF av0 offered taken norm av av' n,
  model_ok m -> dense m -> added_history build m NF av0 offered taken ->
  av_refresh_normalized build norm av0 = (av, true) -> (forall f, norm = Some f -> NF f) ->
  av_load build' m norm (av_save av) = (av', Some n) ->
  forall i, tk_id_to_token m av' i = tk_id_to_token m av i.
Proof.
  intros build build' m NF av0 offered taken norm av av' n MO D H RN HN L i.
  pose proof (history_inv _ _ _ _ _ _ MO D H) as I0.
  pose proof (renormalize_names _ _ _ _ (ai_keys_r _ _ I0) RN) as NM.
  pose proof (ah_renormalize _ _ _ _ _ _ _ _ _ H HN RN) as H1. pose proof (history_inv _ _ _ _ _ _ MO D H1) as I.
  destruct (C57_save_load _ _ _ _ _ _ _ _ _ _ MO D H1 L) as (_ & _ & R & _).
  destruct (load_save _ _ _ _ _ _ MO D I L) as [LD _].
  assert (CE : forall x, aget N.eqb i (av_cache av') = Some x <-> aget N.eqb i (av_cache av) = Some x).
  { intros x. rewrite (ld_name _ _ _ LD), NM. split; intros (t & X & Y); exists t; (split; [|exact Y]).
    - apply (In_aget N.eqb N_eqb_eq); [apply (ai_keys_r _ _ I)|exact X].
    - apply (aget_In N.eqb N_eqb_eq). exact X. }
  assert (CC : aget N.eqb i (av_cache av') = aget N.eqb i (av_cache av)).
  { destruct (aget N.eqb i (av_cache av')) as [x|] eqn:E; [symmetry; apply CE; reflexivity|].
    destruct (aget N.eqb i (av_cache av)) as [x|] eqn:E2; [|reflexivity]. exact (proj2 (CE x) eq_refl). }
  unfold tk_id_to_token, av_simple_id_to_token. rewrite R, CC. reflexivity.
Qed.

(** The special set is not preserved in general, nor is the switch for encoding
    special tokens. *)
Theorem C57_special_set_refuted :
  exists av taken av' n c, added_history all_ok sample_model no_norm av taken taken /\
    av_load all_ok sample_model None (av_save av) = (av', Some n) /\
    av_is_special av c = true /\ av_is_special av' c = false.
Proof.
  exists (fst (add_tokens all_ok sample_model None [special_token [120]%N; plain_token [120]%N] av_new)),
         [special_token [120]%N; plain_token [120]%N]. eexists _, _, [120]%N.
  split; [|split; [vm_compute; reflexivity|vm_compute; auto]].
  eapply (ah_add _ _ _ av_new [] [] None); [apply ah_new|discriminate|vm_compute; reflexivity].
Qed.

Theorem C57_encode_special_refuted :
  exists av taken av' n, added_history all_ok sample_model no_norm av taken taken /\
    av_load all_ok sample_model None (av_save av) = (av', Some n) /\
    av_encode_special av = true /\ av_encode_special av' = false.
Proof.
  exists (av_set_encode_special sample_av true), sample_tokens. eexists _, _. split; [apply ah_encode_special; apply sample_history|].
  split; [vm_compute; reflexivity|vm_compute; auto].
Qed.

(** Over a model whose ids have gaps, reloading can also change the ids. *)
Definition gap_model : model_vocab := table_model [([97]%N, 0%N); ([98]%N, 5%N)].
Theorem C57_sparse_model_refuted :
  exists av taken av' n t, model_ok gap_model /\ added_history all_ok gap_model no_norm av taken taken /\
    av_load all_ok gap_model None (av_save av) = (av', Some n) /\
    tk_token_to_id gap_model av' t <> tk_token_to_id gap_model av t.
Proof.
  exists (fst (add_tokens all_ok gap_model None [plain_token [120]%N] (fst (add_tokens all_ok gap_model None [plain_token [98]%N] av_new)))),
         [plain_token [98]%N; plain_token [120]%N]. eexists _, _, [120]%N.
  split; [apply table_model_ok; repeat constructor; cbn; intuition discriminate|].
  split; [|split; [vm_compute; reflexivity|vm_compute; discriminate]].
  change [plain_token [98%N]; plain_token [120%N]] with ([plain_token [98%N]] ++ [plain_token [120%N]]).
  eapply (ah_add _ _ _ (fst (add_tokens all_ok gap_model None [plain_token [98]%N] av_new)) _ _ None); [|discriminate|vm_compute; reflexivity].
  eapply (ah_add _ _ _ av_new [] [] None); [apply ah_new|discriminate|vm_compute; reflexivity].
Qed.

Example C57_example :
  exists av', av_load all_ok sample_model None (av_save sample_av) = (av', Some 3) /\
    map (tk_token_to_id sample_model av') [[97]; [98]; [60; 115; 62]; [120; 121]]%N = [Some 0; Some 1; Some 2; Some 3]%N /\
    av_is_special av' [60; 115; 62]%N = true.
Proof. eexists. split; [vm_compute; reflexivity|]. vm_compute. auto. Qed.
