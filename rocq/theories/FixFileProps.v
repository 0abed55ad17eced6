(** C100: files that are saved, loaded and saved again. *)
From Coq Require Import String.
From Coq Require Import Sorting.Permutation Sorting.Sorted.
From Verif Require Import Base StrBytes ListFacts AMap EncodingModel TruncPadModel NormModel PreTokModel BpeWordModel BpeModel BpeSpec BpeProofs RoundTripModel WordPieceModel UnigramModel AddedModel AddedSpec ProcessorsModel TokenizerModel ModelFilesModel ModelFilesSpec ModelFilesProofs4 ModelFilesProps ComponentFilesModel ComponentFilesSpec ComponentFilesProps TokenizerFilesModel TokenizerFilesSpec TokenizerFilesProps FixFileSpec FixFileProofs.

(** Hash maps are listed in an order of their own, which the file does not show: two
    tokenizers of the same contents are saved alike. *)
Theorem C100_order {W} (P : platform W) g g' : rank_sort (pf_by_rank P) -> order_blind (pf_by_key P) ->
  unambiguous (g_model g) -> NoDup (map fst (av_map_r (g_added g))) -> shuffled g g' -> tokenizer_to_json P g' = tokenizer_to_json P g.
Proof. apply shuffled_saved. Qed.

(** A tokenizer made by any calls can be saved, and whatever is loaded from the file,
    with the fields of its objects in any order, is saved as the same file. *)
Theorem C100_again {W} (P : platform W) m g ts : platform_ok P -> order_blind (pf_by_key P) -> model_sound P m -> made P m g ts -> parts_valid P g ->
  exists j, tokenizer_to_json P g = Ok j /\ forall j' g', rearranged j j' -> tokenizer_of_json P j' = Ok g' -> tokenizer_to_json P g' = Ok j.
Proof. apply saved_again. Qed.

(** Nor does it matter where a file came from: once loaded and saved it stays the
    same, however often this is repeated. *)
Fixpoint cycles {W} (P : platform W) (n : nat) (j : json W) : res file_error (json W) :=
  match n with O => Ok j | S n => let! g := tokenizer_of_json P j in let! j := tokenizer_to_json P g in cycles P n j end.
Theorem C100_loaded {W} (P : platform W) j0 g0 : platform_ok P -> order_blind (pf_by_key P) -> tokenizer_of_json P j0 = Ok g0 ->
  (forall t u, file_token j0 t -> file_token j0 u -> at_content t = at_content u -> t = u) ->
  model_sound P (g_model g0) -> (forall i t, aget N.eqb i (av_map_r (g_added g0)) = Some t -> fits 32 i) ->
  exists j, tokenizer_to_json P g0 = Ok j /\ forall n, cycles P (S n) j0 = Ok j.
Proof.
  intros PO OB L FT MS FI. destruct (loaded_made P j0 g0 L) as (ts & MD & TS). pose proof (loaded_parts P _ _ L FI) as PV. destruct (saved_again P _ _ _ PO OB MS MD PV) as (j & E & H).
  assert (CO : consistent ts) by (intros t u X Y; apply FT; apply TS; assumption).
  destruct (C72_tokenizer P _ _ _ PO MS MD CO PV) as (j1 & E1 & H1). assert (j1 = j) by congruence. subst j1. destruct (H1 j (re_same j)) as (g & EJ & _). pose proof (H j g (re_same j) EJ) as E'.
  exists j. split; [exact E|]. intros n. cbn [cycles]. rewrite L. cbn [bind]. rewrite E. cbn [bind]. induction n as [|k IH]; [reflexivity|]. cbn [cycles]. rewrite EJ. cbn [bind]. rewrite E'. cbn [bind]. exact IH.
Qed.

(** Models alone, in JSON and in their own files. *)
Theorem C100_model {W} (A : arith W) (F : floats W) by_rank (m : @model W) : rank_sort by_rank -> floats_ok F -> savable A F m ->
  exists j, model_to_json F by_rank m = Ok j /\ forall j', rearranged j j' -> exists m', model_of_json A F j' = Ok m' /\ model_to_json F by_rank m' = Ok j.
Proof.
  intros RS FO S. destruct (C66_saved A F by_rank m RS FO S) as (j & E & H). exists j. split; [exact E|]. intros j' R. destruct (H j' R) as (m' & L & _ & SM). exists m'. split; [exact L|].
  rewrite <- E. apply (loaded_json A F _ RS); try assumption. intros b ->. eapply model_keys. exact L.
Qed.
Theorem C100_bpe_files {W} by_rank vocab merges prefix m : rank_sort by_rank -> built vocab merges prefix m -> writable vocab -> Forall plain_merge merges ->
  exists v text, @bpe_save W by_rank m = Ok (v, text) /\
    forall v', rearranged v v' -> exists m', bpe_from_file v' text (b_dropout m) (b_unk m) (b_prefix m) (b_suffix m) (b_fuse m) (b_fallback m) (b_ignore_merges m) = Ok m' /\ bpe_save by_rank m' = Ok (v, text).
Proof.
  intros RS B WR PM. destruct (C67_bpe (W := W) _ _ _ _ _ RS B WR PM) as (v & text & E & H). exists v, text. split; [exact E|]. intros v' R. destruct (H v' R) as (m' & L & SB). exists m'. split; [exact L|].
  assert (K : NoDup (map fst (b_merges m'))).
  { unfold bpe_from_file in L. destruct (b_dropout m); try discriminate; apply bind_ok in L; destruct L as (? & _ & L); apply bind_ok in L; destruct L as (? & _ & L); unfold custom in L;
      (destruct (bpe_build _ _ _ _ _ _ _ _ _) eqn:EB; try discriminate); injection L as ->; eapply built_keys; exact EB. }
  destruct (loaded_bpe_ext _ RS _ _ _ _ _ B WR SB K) as [T M]. rewrite <- E. unfold bpe_save. rewrite (merge_texts_ext _ _ _ T M), (ordered_vocab_ext (b_vocab_r m) (b_vocab_r m') T). reflexivity.
Qed.
Theorem C100_wordlevel_file {W} m : writable (l_vocab m) ->
  exists v, @wl_save W m = Ok v /\ forall v', rearranged v v' -> exists m', wl_from_file v' (l_unk m) = Ok m' /\ wl_save m' = Ok v.
Proof.
  intros WR. destruct (C67_wordlevel (W := W) m WR) as (v & E & H). exists v. split; [exact E|]. intros v' R. destruct (H v' R) as (m' & L & (_ & P) & _). exists m'. split; [exact L|].
  rewrite <- E. unfold wl_save. apply ordered_vocab_ext. intros i. apply reverse_perm; [apply WR|exact P].
Qed.
Theorem C100_wordpiece_file is_ws by_id m :
  id_sort by_id -> is_ws 13%N = true -> dense (w_vocab m) -> (N.of_nat (List.length (w_vocab m)) <= 2 ^ 32)%N ->
  (forall t, In t (map fst (w_vocab m)) -> plain_token is_ws t) ->
  forall m', w_vocab m' = wp_read is_ws (wp_save by_id m) -> wp_save by_id m' = wp_save by_id m.
Proof.
  intros IS W13 D L PT m' E. destruct (C67_wordpiece is_ws by_id m IS W13 D L PT) as [_ P]. rewrite <- E in P. unfold wp_save. f_equal.
  assert (ND : NoDup (map snd (w_vocab m))).
  { eapply Permutation_NoDup; [apply Permutation_sym; apply D|]. apply FinFun.Injective_map_NoDup; [intros a b; lia|apply seq_NoDup]. }
  apply (sorted_perm_unique (fun a b : str * N => (snd a < snd b)%N)); [intros a b; lia| | |].
  3: { eapply perm_trans; [apply Permutation_sym; apply IS|]. eapply perm_trans; [apply Permutation_sym; exact P|apply IS]. }
  all: assert (G : forall l : list (str * N), NoDup (map snd l) -> StronglySorted (fun a b => (snd a <= snd b)%N) l -> StronglySorted (fun a b => (snd a < snd b)%N) l)
    by (clear; induction l as [|x l IH]; intros D S; constructor; inversion S as [|? ? S1 F1]; subst; cbn [map] in D; inversion D as [|? ? NI D1]; subst; [auto|];
        rewrite Forall_forall in *; intros y IY; specialize (F1 y IY); cbn in F1; assert (snd x <> snd y) by (intros E; apply NI; rewrite E; apply in_map; exact IY); lia).
  all: apply G; [|apply IS]; eapply Permutation_NoDup; [apply Permutation_map; apply IS|].
  - eapply Permutation_NoDup; [apply Permutation_map; exact P|exact ND].
  - exact ND.
Qed.

(** Two tokens with one id: which of them is written depends on the order of the hash
    map, so that two models made by the same call can be saved differently, and each
    file lacks a token. *)
Theorem C100_shared_id_refuted : exists (m m' : wordlevel) (j j' : json unit),
  shuffled_model (W := unit) (MWordLevel m) (MWordLevel m') /\ NoDup (map fst (l_vocab m)) /\ wl_to_json m = Ok j /\ wl_to_json m' = Ok j' /\ j <> j' /\
  exists n n', wl_of_json j = Ok n /\ wl_of_json j' = Ok n' /\ aget str_eqb [97%N] (l_vocab m) = Some 0%N /\ aget str_eqb [97%N] (l_vocab n) = None /\ aget str_eqb [97%N] (l_vocab n') = Some 0%N.
Proof.
  exists (mkWL [([97%N], 0%N); ([98%N], 0%N)] [98%N]), (mkWL [([98%N], 0%N); ([97%N], 0%N)] [98%N]). eexists _, _.
  split; [constructor; [apply perm_swap|reflexivity]|]. split; [repeat constructor; cbn; intuition discriminate|]. split; [vm_compute; reflexivity|]. split; [vm_compute; reflexivity|].
  split; [vm_compute; discriminate|]. eexists _, _. split; [vm_compute; reflexivity|]. split; [vm_compute; reflexivity|]. repeat split.
Qed.

(** ** Examples *)
(** A sort by key. *)
Fixpoint str_leb (a b : str) : bool :=
  match a, b with [], _ => true | _ :: _, [] => false | x :: a', y :: b' => N.ltb x y || (N.eqb x y && str_leb a' b') end.
Fixpoint insert_key {V} (e : str * V) (l : list (str * V)) : list (str * V) :=
  match l with [] => [e] | x :: l' => if str_leb (fst e) (fst x) then e :: l else x :: insert_key e l' end.
Definition sort_key {V} (l : list (str * V)) : list (str * V) := fold_right insert_key [] l.
Lemma str_leb_total a : forall b, str_leb a b = false -> str_leb b a = true.
Proof. induction a as [|x a IH]; intros [|y b] H; cbn [str_leb] in *; try reflexivity; try discriminate. destruct (N.ltb_spec x y); [discriminate|]. destruct (N.eqb_spec x y); cbn in H; [subst; rewrite N.eqb_refl, (IH _ H), orb_true_r; reflexivity|]. replace (N.ltb y x) with true by lia. reflexivity. Qed.
Lemma str_leb_trans a : forall b c, str_leb a b = true -> str_leb b c = true -> str_leb a c = true.
Proof.
  induction a as [|x a IH]; intros [|y b] [|z c] H1 H2; cbn [str_leb] in *; try reflexivity; try discriminate.
  destruct (N.ltb_spec x z); [reflexivity|]. cbn. destruct (N.ltb_spec x y); cbn in H1; destruct (N.ltb_spec y z); cbn in H2; try lia.
  destruct (N.eqb_spec x y); [|discriminate]. destruct (N.eqb_spec y z); [|discriminate]. cbn in *. subst. rewrite N.eqb_refl. cbn. eapply IH; eassumption.
Qed.
Lemma str_leb_antisym a : forall b, str_leb a b = true -> str_leb b a = true -> a = b.
Proof.
  induction a as [|x a IH]; intros [|y b] H1 H2; cbn [str_leb] in *; try reflexivity; try discriminate.
  destruct (N.ltb_spec x y); destruct (N.ltb_spec y x); cbn in *; try lia; destruct (N.eqb_spec x y); destruct (N.eqb_spec y x); cbn in *; try lia; try discriminate. subst. f_equal. apply IH; assumption.
Qed.
Lemma sort_key_perm {V} (l : list (str * V)) : Permutation l (sort_key l).
Proof.
  assert (I : forall (e : str * V) l, Permutation (e :: l) (insert_key e l)).
  { intros e l0. induction l0 as [|x l0 IH]; cbn [insert_key]; [apply Permutation_refl|]. destruct (str_leb _ _); [apply Permutation_refl|]. eapply perm_trans; [apply perm_swap|]. apply perm_skip. exact IH. }
  induction l as [|e l IH]; [constructor|]. cbn [sort_key fold_right]. eapply perm_trans; [apply perm_skip; exact IH|apply I].
Qed.
Lemma sort_key_sorted {V} (l : list (str * V)) : StronglySorted (fun a b => str_leb (fst a) (fst b) = true) (sort_key l).
Proof.
  induction l as [|e l IH]; [constructor|]. cbn [sort_key fold_right]. fold (sort_key l). induction IH as [|x l0 S IH2 F]; cbn [insert_key]; [constructor; constructor|]. destruct (str_leb (fst e) (fst x)) eqn:E.
  - constructor; [constructor; assumption|]. constructor; [exact E|]. eapply Forall_impl; [|exact F]. intros y Y. cbn in *. eapply str_leb_trans; eassumption.
  - constructor; [exact IH2|]. apply Forall_forall. intros y Y. assert (Q : Permutation (e :: l0) (insert_key e l0)).
    { clear. induction l0 as [|x l0 IH]; cbn [insert_key]; [apply Permutation_refl|]. destruct (str_leb _ _); [apply Permutation_refl|]. eapply perm_trans; [apply perm_swap|]. apply perm_skip. exact IH. }
    apply (Permutation_in _ (Permutation_sym Q)) in Y. destruct Y as [<-|Y]; [apply str_leb_total; exact E|]. rewrite Forall_forall in F. apply F. exact Y.
Qed.
Lemma sort_key_blind {V} : order_blind (@sort_key V).
Proof.
  intros l l' D P. apply (sorted_perm_unique (fun a b => str_leb (fst a) (fst b) = true /\ fst a <> fst b)).
  - intros a b [H1 N1] [H2 _]. apply N1. apply str_leb_antisym; assumption.
  - assert (D' : NoDup (map fst (sort_key l'))) by (eapply Permutation_NoDup; [apply Permutation_map; eapply perm_trans; [exact P|apply sort_key_perm]|exact D]).
    pose proof (sort_key_sorted l') as S. revert D' S. generalize (sort_key l') as L. clear. induction L as [|x L IH]; intros D S; constructor; inversion S as [|? ? S1 F1]; subst; inversion D as [|? ? NI D1]; subst; [auto|].
    rewrite Forall_forall in *. intros y Y. split; [apply F1; exact Y|]. intros E. apply NI. rewrite E. apply in_map. exact Y.
  - assert (D' : NoDup (map fst (sort_key l))) by (eapply Permutation_NoDup; [apply Permutation_map; apply sort_key_perm|exact D]).
    pose proof (sort_key_sorted l) as S. revert D' S. generalize (sort_key l) as L. clear. induction L as [|x L IH]; intros D S; constructor; inversion S as [|? ? S1 F1]; subst; inversion D as [|? ? NI D1]; subst; [auto|].
    rewrite Forall_forall in *. intros y Y. split; [apply F1; exact Y|]. intros E. apply NI. rewrite E. apply in_map. exact Y.
  - eapply perm_trans; [apply Permutation_sym, sort_key_perm|]. eapply perm_trans; [apply Permutation_sym; exact P|apply sort_key_perm].
Qed.

Definition fx_platform : platform Z :=
  mkPlatform z_arith z_floats sort_rank sort_key ex_engines NormalizersProps.ex_tables PreTokenizersProps.toy_tables
    (N.eqb 32) (fun c => (97 <=? c)%N && (c <=? 122)%N) (N.eqb 32) distinct (fun l => match l with [] => None | x :: l => Some (x, l) end) (fun _ _ => false).
Lemma fx_platform_ok : platform_ok fx_platform.
Proof. destruct ex_platform_ok as [A B C D E]. constructor; try assumption. intros l. apply sort_key_perm. Qed.
Lemma fx_sound : model_sound fx_platform ex_wp.
Proof. exact ex_wp_sound. Qed.

(** A tokenizer with a post-processor of two special tokens and two added tokens; the
    same with its hash maps in another order; and a file of another program, with the
    fields in another order and an id that is ignored. *)
Definition fx_sep : str * special_token := ([93%N], mkSpecialToken [93%N] [8%N] [[93%N]]).
Definition fx_template (l : list (str * special_token)) : template_config := mkTemplateConfig [PSpecial [91%N] 0; PSeq SeqA 0; PSpecial [93%N] 0] [PSeq SeqA 0; PSpecial [91%N] 1; PSeq SeqB 1] 2 1 l.
Definition fx_config : config Z := with_post_processor ex_config (Some (CqTemplate (fx_template [fx_sep; ex_cls]))).
Definition fx_shuffled : config Z :=
  mkConfig (g_normalizer ex_config) (g_pre ex_config) (MWordPiece (mkWP [([63], 3); ([98], 1); ([97], 0); ([35; 35; 99], 2)]%N [63%N] [35; 35]%N 100))
    (Some (CqTemplate (fx_template [ex_cls; fx_sep]))) (g_decoder ex_config)
    (mkAV (av_map (g_added ex_config)) (rev (av_map_r (g_added ex_config))) (av_special (g_added ex_config)) (av_cache (g_added ex_config)) (av_trie (g_added ex_config)) (av_ntrie (g_added ex_config)) false)
    (g_truncation ex_config) (g_padding ex_config).
Example C100_order_example : shuffled fx_config fx_shuffled /\ unambiguous (g_model fx_config) /\ NoDup (map fst (av_map_r (g_added fx_config))) /\ fx_config <> fx_shuffled.
Proof.
  split; [|split; [|split; [|intros E; vm_compute in E; discriminate E]]].
  - constructor; try reflexivity.
    + constructor; try reflexivity. cbn. apply NoDup_Permutation; [repeat constructor; cbn; intuition discriminate|repeat constructor; cbn; intuition discriminate|]. intros x. cbn. tauto.
    + cbn. apply sp_template. repeat split; [repeat constructor; cbn; intuition discriminate|apply perm_swap].
    + apply Permutation_rev.
  - cbn. repeat constructor; cbn; intuition discriminate.
  - vm_compute. repeat constructor; cbn; intuition discriminate.
Qed.
Example C100_again_example : platform_ok fx_platform /\ order_blind (pf_by_key fx_platform) /\ model_sound fx_platform ex_wp /\ made fx_platform ex_wp fx_config [ex_special; ex_plain] /\ parts_valid fx_platform fx_config /\
  exists j g', tokenizer_to_json fx_platform fx_config = Ok j /\ tokenizer_of_json fx_platform j = Ok g' /\ g' <> fx_config /\ tokenizer_to_json fx_platform g' = Ok j.
Proof.
  assert (OB : order_blind (pf_by_key fx_platform)) by apply sort_key_blind.
  assert (MD : made fx_platform ex_wp fx_config [ex_special; ex_plain]).
  { assert (MB : made fx_platform ex_wp ex_base []) by (apply md_post; eapply md_normalizer; [apply md_new|]; vm_compute; reflexivity).
    apply md_post. apply (md_padding fx_platform). eapply (md_add _ _ _ []); [exact MB|]. vm_compute. reflexivity. }
  assert (PV : parts_valid fx_platform fx_config).
  { destruct C72_example as (_ & _ & _ & _ & (A & B & _ & C & D & E & F) & _). split; [exact A|]. split; [exact B|]. split; [|split; [exact C|split; [exact D|split; [exact E|exact F]]]].
    cbn. repeat split; repeat constructor; cbn; intuition discriminate. }
  split; [apply fx_platform_ok|]. split; [exact OB|]. split; [apply fx_sound|]. split; [exact MD|]. split; [exact PV|].
  eexists _, _. split; [vm_compute; reflexivity|]. split; [vm_compute; reflexivity|]. split; [intros X; vm_compute in X; discriminate X|]. vm_compute. reflexivity.
Qed.
Definition fx_file : json Z :=
  JObj [(key "model", JObj [(key "vocab", JObj [([98%N], JInt 1%N); ([97%N], JInt 0%N)]); (key "unk_token", JStr [98%N]); (key "type", JStr (key "WordLevel"))]);
        (key "added_tokens", JArr [of_added (77%N, ex_special); of_added (5%N, ex_plain)])].
Example C100_loaded_example : exists g0 j, tokenizer_of_json fx_platform fx_file = Ok g0 /\
  (forall t u, file_token fx_file t -> file_token fx_file u -> at_content t = at_content u -> t = u) /\
  model_sound fx_platform (g_model g0) /\ (forall i t, aget N.eqb i (av_map_r (g_added g0)) = Some t -> fits 32 i) /\
  cycles fx_platform 1 fx_file = Ok j /\ j <> fx_file /\ cycles fx_platform 3 fx_file = Ok j.
Proof.
  eexists _, _. split; [vm_compute; reflexivity|]. split.
  { assert (T : forall t, file_token fx_file t -> t = ex_special \/ t = ex_plain).
    { intros t (l & items & v & i & E & I & J & A). unfold fx_file in E. injection E as <-. destruct I as [I|[I|[]]]; [discriminate I|]. injection I as <-. destruct J as [<-|[<-|[]]]; cbn in A; injection A as <- <-; auto. }
    intros t u H1 H2. destruct (T _ H1) as [->| ->], (T _ H2) as [->| ->]; try reflexivity; intros E; vm_compute in E; discriminate E. }
  split.
  { split; [|split; [|exact Logic.I]].
    - split; [repeat constructor; cbn; intuition discriminate|]. split; [repeat constructor; cbn; intuition discriminate|].
      intros t i H. cbn in H. repeat destruct H as [H|H]; try (injection H as <- <-; reflexivity). contradiction.
    - intros t i H. apply (aget_In str_eqb str_eqb_eq) in H. cbn in H. repeat destruct H as [H|H]; try (injection H as <- <-; reflexivity). contradiction. }
  split; [intros i t H; apply (aget_In N.eqb N.eqb_eq) in H; vm_compute in H; repeat destruct H as [H|H]; try (injection H as <- _; reflexivity); contradiction|].
  split; [vm_compute; reflexivity|]. split; [vm_compute; discriminate|]. vm_compute. reflexivity.
Qed.
