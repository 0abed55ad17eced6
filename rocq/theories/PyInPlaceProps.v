(** C88, continued: the components of a tokenizer changed in place through the
    attributes of the Python objects that share them, without the tokenizer being told. *)
From Coq Require Import String.
From Coq Require Import Sorting.Permutation Sorting.Sorted.
From Verif Require Import Base StrBytes AMap EncodingModel TruncPadModel NormModel PreTokModel BpeWordModel BpeModel BpeSpec RoundTripModel WordPieceModel UnigramModel AddedModel AddedSpec AddedProofs AddedProofs2 ProcessorsModel TokenizerModel ModelFilesModel ModelFilesSpec ModelFilesProps ComponentFilesModel ComponentFilesSpec ComponentFilesProps TokenizerFilesModel TokenizerFilesSpec TokenizerFilesProofs TokenizerFilesProofs2 TokenizerFilesProofs3 TokenizerFilesProps.

(** [setter!], bindings/python/src/normalizers.rs:208-225: the value behind the lock of
    the normalizer is overwritten; the tokenizers that hold it are not told, their added
    tokens stay as they are. *)
Definition in_place {W} (g : config W) (c : norm_config) : config W :=
  mkConfig (Some c) (g_pre g) (g_model g) (g_post g) (g_decoder g) (g_added g) (g_truncation g) (g_padding g).
(** The same of a model: [setter!], bindings/python/src/models.rs:351-359, and [train],
    trainers.rs:95-100; the model of a tokenizer is a pointer to the one of the Python
    object, tokenizer.rs:1885-1889. *)
Definition model_in_place {W} (g : config W) (m : @model W) : config W :=
  mkConfig (g_normalizer g) (g_pre g) m (g_post g) (g_decoder g) (g_added g) (g_truncation g) (g_padding g).

(** What an added token is searched as. *)
Definition searched_as {W} (P : platform W) (n : option norm_config) (t : added_token) : option str :=
  if at_normalized t then match n with Some c => content_norm P c (at_content t) | None => Some (at_content t) end else Some (at_content t).

Section stale.
  Context {W : Type} (P : platform W).

  Lemma searched_name n n' t x : searched_as P n t = searched_as P n' t ->
    special_name (option_map (content_norm P) n) t x -> special_name (option_map (content_norm P) n') t x.
  Proof.
    intros E (A & B & f & F & V). unfold searched_as in E. rewrite A in E. destruct n as [c|]; [|discriminate F].
    cbn [option_map] in F. injection F as <-. rewrite V in E. destruct n' as [c'|]; [|congruence].
    split; [exact A|]. split; [exact B|]. exists (content_norm P c'). split; [reflexivity|congruence].
  Qed.

  Lemma recache_runs norm l : (forall i t f, In (i, t) l -> at_normalized t = true -> norm = Some f -> f (at_content t) <> None) ->
    forall c, exists c', recache norm l c = (c', true).
  Proof.
    induction l as [|[i t] l IH]; intros H c; [exists c; reflexivity|]. cbn [recache].
    assert (H' : forall j u f, In (j, u) l -> at_normalized u = true -> norm = Some f -> f (at_content u) <> None) by (intros; eapply H; [right|..]; eassumption).
    destruct norm as [f|]; [|apply IH; exact H'].
    destruct (at_normalized t) eqn:A; [|apply IH; exact H'].
    destruct (f (at_content t)) eqn:F; [apply IH; exact H'|].
    exfalso. exact (H i t f (or_introl eq_refl) A eq_refl F).
  Qed.

  Lemma pairs_cache av c : (forall i, aget N.eqb i c = aget N.eqb i (av_cache av)) ->
    normalized_pairs (mkAV (av_map av) (av_map_r av) (av_special av) c (av_trie av) (av_ntrie av) (av_encode_special av)) = normalized_pairs av.
  Proof.
    intros H. unfold normalized_pairs. cbn [av_map_r av_cache]. apply flat_map_ext. intros [i t]. cbn [fst snd]. rewrite H. reflexivity.
  Qed.

  (** Splitting does not look at the cached names. *)
  Definition recached (av : added_vocab) (c : list (N * str)) : added_vocab :=
    mkAV (av_map av) (av_map_r av) (av_special av) c (av_trie av) (av_ntrie av) (av_encode_special av).
  Lemma find_loop_cache sp wd av c s : forall ms from, find_loop sp wd (recached av c) s ms from = find_loop sp wd av s ms from.
  Proof.
    induction ms as [|[[st en] i] ms IH]; intros from; [reflexivity|]. cbn [find_loop recached av_map_r av_special av_encode_special].
    destruct (aget N.eqb i (av_map_r av)) as [t|]; [|reflexivity]. cbn [Base.of_option bind]. rewrite !IH.
    match goal with |- (if ?a then _ else _) = _ => destruct a; [reflexivity|] end.
    match goal with |- bind ?a _ = bind ?a _ => destruct a as [sk| |]; [|reflexivity|reflexivity] end. cbn [bind]. destruct sk; [reflexivity|].
    match goal with |- bind ?a _ = bind ?a _ => destruct a as [x| |]; [|reflexivity|reflexivity] end. cbn [bind].
    match goal with |- bind ?a _ = bind ?a _ => destruct a as [y| |]; [|reflexivity|reflexivity] end. cbn [bind]. rewrite IH. reflexivity.
  Qed.
  Lemma extract_cache sp wd av c norm s : extract_and_normalize sp wd (recached av c) norm s = extract_and_normalize sp wd av norm s.
  Proof.
    assert (F : forall t ns, split_with_indices sp wd (recached av c) t ns = split_with_indices sp wd av t ns).
    { intros t ns. unfold split_with_indices, find_matches. destruct (is_nil _); [reflexivity|]. destruct t as [l|]; [|reflexivity]. rewrite find_loop_cache. reflexivity. }
    unfold extract_and_normalize. cbn [recached av_trie av_ntrie].
    rewrite (pt_split_ext (fun _ ns => split_with_indices sp wd av (av_trie av) ns)) by (intros; apply F).
    destruct (pt_split _ (pre_from s)) as [pt| |]; [|reflexivity|reflexivity]. cbn [bind].
    apply pt_split_ext. intros. rewrite F. reflexivity.
  Qed.

  (** Assigning the normalizer after changing it in place does what assigning the
      changed one would have done. *)
  Theorem C88_reassign (g : config W) c : with_normalizer P (in_place g c) (Some c) = with_normalizer P g (Some c).
  Proof. reflexivity. Qed.

  (** When no added token is searched as something else with the new normalizer, a
      change in place and an assignment cannot be told apart. *)
  Theorem C88_in_place m g ts c : model_sound P m -> made P m g ts -> consistent ts ->
    (forall t, In t ts -> searched_as P (Some c) t = searched_as P (g_normalizer g) t) ->
    exists g', with_normalizer P g (Some c) = (g', true) /\ same_answers P g' (in_place g c).
  Proof.
    intros SO M CO SA. pose proof (sound_ok _ _ SO) as MO. destruct SO as (_ & DE & _).
    destruct (made_facts P m MO DE g ts M CO) as [FM FI FC FF FU].
    assert (SE : forall i t, aget N.eqb i (av_map_r (g_added g)) = Some t -> searched_as P (Some c) t = searched_as P (g_normalizer g) t)
      by (intros i t H; apply SA; exact (FF _ _ H)).
    assert (RR : forall i t f, In (i, t) (av_map_r (g_added g)) -> at_normalized t = true -> Some (content_norm P c) = Some f -> f (at_content t) <> None).
    { intros i t f H A F. injection F as <-. pose proof (In_aget N.eqb N_eqb_eq _ _ _ (ai_keys_r _ _ FI) H) as G.
      pose proof (SE _ _ G) as S. pose proof (cl_runs _ _ FC i t) as R. unfold searched_as in S. rewrite A in S.
      unfold norm_fun in R. destruct (g_normalizer g) as [c0|]; [|congruence].
      rewrite S. exact (R _ G A eq_refl). }
    destruct (recache_runs _ _ RR []) as [cc RC].
    assert (CE : forall i, aget N.eqb i cc = aget N.eqb i (av_cache (g_added g))).
    { assert (X : forall i x, aget N.eqb i cc = Some x <-> aget N.eqb i (av_cache (g_added g)) = Some x).
      { intros i x. rewrite (recache_names _ _ (ai_keys_r _ _ FI) _ _ RC), (cl_name _ _ FC). split.
        - intros [(t & H & S)|[H _]]; [|discriminate H]. pose proof (In_aget N.eqb N_eqb_eq _ _ _ (ai_keys_r _ _ FI) H) as G.
          exists t. split; [exact G|]. exact (searched_name (Some c) (g_normalizer g) t x (SE _ _ G) S).
        - intros (t & G & S). left. exists t. split; [exact (aget_In N.eqb N_eqb_eq _ _ _ G)|].
          exact (searched_name (g_normalizer g) (Some c) t x (eq_sym (SE _ _ G)) S). }
      intros i. destruct (aget N.eqb i cc) as [x|] eqn:E1; [symmetry; apply X; exact E1|].
      destruct (aget N.eqb i (av_cache (g_added g))) as [y|] eqn:E2; [|reflexivity]. apply X in E2. congruence. }
    destruct (current_tries _ _ FU) as (T1 & T2 & T3 & T4).
    set (av' := mkAV (av_map (g_added g)) (av_map_r (g_added g)) (av_special (g_added g)) cc (av_trie (g_added g)) (av_ntrie (g_added g)) (av_encode_special (g_added g))).
    assert (RF : av_refresh_normalized (pf_build P) (Some (content_norm P c)) (g_added g) = (av', true)).
    { unfold av_refresh_normalized. rewrite RC. fold av'. unfold av_refresh.
      replace (normalized_pairs av') with (normalized_pairs (g_added g)) by (symmetry; apply pairs_cache; exact CE).
      change (plain_pairs av') with (plain_pairs (g_added g)). rewrite T1, T2, <- T3, <- T4. reflexivity. }
    exists (set_added (in_place g c) av'). split.
    { unfold with_normalizer. cbn [norm_fun g_normalizer g_added option_map]. unfold norm_fun. cbn [g_normalizer option_map]. rewrite RF. reflexivity. }
    assert (TI : forall v i, tk_id_to_token v av' i = tk_id_to_token v (g_added g) i).
    { intros v i. unfold tk_id_to_token, av_simple_id_to_token. cbn [av_map_r av_cache av']. rewrite CE. reflexivity. }
    assert (AL : alike_tokenizers (runtime P (set_added (in_place g c) av')) (runtime P (in_place g c)))
      by (constructor; try reflexivity; intros s; symmetry; apply extract_cache).
    constructor; try reflexivity.
    - intros ot input add. apply encode_ext. exact AL.
    - intros ot inputs add schedule. apply encode_batch_ext. exact AL.
    - intros skip ids. unfold decode_ids, AddedModel.decode. cbn [in_place set_added g_model g_added g_decoder].
      replace (AddedModel.decode_tokens (model_vocabulary (g_model g)) (g_added g) skip ids)
        with (AddedModel.decode_tokens (model_vocabulary (g_model g)) av' skip ids); [reflexivity|].
      unfold AddedModel.decode_tokens. apply flat_map_ext. intros i. rewrite TI. reflexivity.
    - intros i. symmetry. apply TI.
  Qed.
End stale.

(** ** Examples and findings *)
Definition ip_bert (lower : bool) : norm_config := CnBert false false (Some false) lower.
Definition ip_config (t : added_token) : config Z := fst (tokenizer_add ex_platform (fst (with_normalizer ex_platform (tokenizer_new ex_wp) (Some (ip_bert true)))) [t]).
Lemma ip_made t : snd (tokenizer_add ex_platform (fst (with_normalizer ex_platform (tokenizer_new ex_wp) (Some (ip_bert true)))) [t]) <> None ->
  made ex_platform ex_wp (ip_config t) [t].
Proof.
  intros H. unfold ip_config. destruct (tokenizer_add _ _ _) as [g [n|]] eqn:E; [|contradiction (H eq_refl)]. cbn [fst].
  eapply (md_add _ _ _ []); [|exact E]. eapply md_normalizer; [apply md_new|]. vm_compute. reflexivity.
Qed.

(** A token in lower case is searched as itself with and without lower-casing. *)
Definition ip_low : added_token := mkAdded [97; 98]%N false true false true false.
Example C88_in_place_ex : model_sound ex_platform ex_wp /\ made ex_platform ex_wp (ip_config ip_low) [ip_low] /\ consistent [ip_low] /\
  (forall t, In t [ip_low] -> searched_as ex_platform (Some (ip_bert false)) t = searched_as ex_platform (g_normalizer (ip_config ip_low)) t) /\
  (exists e, encode (runtime ex_platform (ip_config ip_low)) OByte (Single (Raw [65; 66]%N)) true = Ok e /\ ids e = [4]%N) /\
  (exists e, encode (runtime ex_platform (in_place (ip_config ip_low) (ip_bert false))) OByte (Single (Raw [65; 66]%N)) true = Ok e /\ ids e = [3]%N).
Proof.
  split; [apply ex_wp_sound|]. split; [apply ip_made; vm_compute; discriminate|]. split; [intros t u [<-|[]] [<-|[]] _; reflexivity|]. split.
  - intros t [<-|[]]. vm_compute. reflexivity.
  - split; eexists; (split; [vm_compute; reflexivity|reflexivity]).
Qed.

(** [t.normalizer.lowercase = False]: a token with capitals is still searched in lower
    case.  The tokenizer no longer finds it in a text that has it, unlike one that was
    given the changed normalizer, and unlike its own pickled copy. *)
Theorem C88_stale_refuted : exists g c g' j copy e1 e2 e3,
  made ex_platform ex_wp g [ex_plain] /\ with_normalizer ex_platform g (Some c) = (g', true) /\
  tokenizer_to_json ex_platform (in_place g c) = Ok j /\ tokenizer_of_json ex_platform j = Ok copy /\
  encode (runtime ex_platform (in_place g c)) OByte (Single (Raw (at_content ex_plain))) true = Ok e1 /\
  encode (runtime ex_platform g') OByte (Single (Raw (at_content ex_plain))) true = Ok e2 /\
  encode (runtime ex_platform copy) OByte (Single (Raw (at_content ex_plain))) true = Ok e3 /\
  ids e1 = [3]%N /\ ids e2 = [4]%N /\ ids e3 = [4]%N /\
  tk_id_to_token (model_vocabulary ex_wp) (g_added (in_place g c)) 4 <> Some (at_content ex_plain) /\
  tk_id_to_token (model_vocabulary ex_wp) (g_added g') 4 = Some (at_content ex_plain).
Proof.
  exists (ip_config ex_plain), (ip_bert false). eexists _, _, _, _, _, _. split; [apply ip_made; vm_compute; discriminate|].
  split; [vm_compute; reflexivity|]. split; [vm_compute; reflexivity|]. split; [vm_compute; reflexivity|].
  split; [vm_compute; reflexivity|]. split; [vm_compute; reflexivity|]. split; [vm_compute; reflexivity|].
  split; [reflexivity|]. split; [reflexivity|]. split; [reflexivity|]. split; [vm_compute; discriminate|vm_compute; reflexivity].
Qed.

(** Two tokenizers with one model: what trains it through the first changes the second,
    whose added token keeps its id.  The id is now that of a word of the model too. *)
Definition ip_after : @model Z := MWordPiece (mkWP [([97], 0); ([98], 1); ([35; 35; 99], 2); ([63], 3); ([100], 4)]%N [63%N] [35; 35]%N 100).
Theorem C88_trained_refuted : exists g m' e1 e2,
  made ex_platform ex_wp g [ex_special] /\ savable (pf_arith ex_platform) (pf_floats ex_platform) m' /\
  encode (runtime ex_platform (model_in_place g m')) OByte (Single (Raw (at_content ex_special))) true = Ok e1 /\
  encode (runtime ex_platform (model_in_place g m')) OByte (Single (Raw [100%N])) true = Ok e2 /\
  ids e1 = [4]%N /\ ids e2 = [4]%N /\ decode_ids ex_platform (model_in_place g m') false (ids e2) = Ok (at_content ex_special).
Proof.
  exists (ip_config ex_special), ip_after. eexists _, _. split; [apply ip_made; vm_compute; discriminate|]. split.
  { split; [|reflexivity]. split; [repeat constructor; cbn; intuition discriminate|]. split; [repeat constructor; cbn; intuition discriminate|].
    intros t i H. cbn in H. repeat destruct H as [H|H]; try (injection H as <- <-; reflexivity). contradiction. }
  split; [vm_compute; reflexivity|]. split; [vm_compute; reflexivity|]. split; [reflexivity|]. split; [reflexivity|vm_compute; reflexivity].
Qed.
