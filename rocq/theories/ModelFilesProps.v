(** Properties of saving and loading models: C56, C66, C67. *)
From Coq Require Import String.
From Verif Require Import Base StrBytes ListFacts Utf8 AMap EncodingModel BpeWordModel BpeWordSpec BpeWordProofs BpeModel BpeSpec BpeProofs BpeProps WordPieceModel UnigramModel ModelFilesModel ModelFilesSpec ModelFilesProofs ModelFilesProofs2 ModelFilesProofs3 ModelFilesProofs4.

(** ** C56: BPE *)

(** A model made by the builder can be saved, and what is saved can be loaded, as
    a BPE or as any model, with its fields in any order: it is the same model. *)
Theorem C56_saved {W} (A : arith W) (F : floats W) by_rank vocab merges prefix m :
  rank_sort by_rank -> floats_ok F -> built vocab merges prefix m -> writable vocab ->
  exists j, bpe_to_json F by_rank m = Ok j /\
    forall j', rearranged j j' -> exists m', bpe_of_json F j' = Ok m' /\ model_of_json A F j' = Ok (MBpe m') /\ same_bpe m m'.
Proof.
  intros RS FO B WR. destruct (bpe_saved A F by_rank _ _ _ _ RS FO B WR) as (j & E & H). exists j. split; [exact E|]. intros j' R. destruct (H j' R) as (m' & H1 & _ & H3 & H4). eauto.
Qed.

(** The same model tokenizes every text alike, with the same random draws, if no
    merge is listed twice. *)
Theorem C56_tokenize pop vocab merges prefix m m' draws s :
  built vocab merges prefix m -> writable vocab -> NoDup merges -> same_bpe m m' ->
  bpe_tokenize pop m' draws s = bpe_tokenize pop m draws s.
Proof.
  intros B WR D SB. pose proof (same_bpe_maps _ _ SB) as [SI ST]. destruct SB as (_ & _ & SL & E1 & E2). apply same_bpe_tokenize; try assumption.
  intros a b. destruct (b_lookup m a b) as [[r n]|] eqn:E.
  - apply SL. exists r. split; [exact E|]. symmetry. eapply nodup_place; eassumption.
  - destruct (b_lookup m' a b) as [[r' n]|] eqn:E'; [|reflexivity]. apply SL in E'. destruct E' as (r & E' & _). congruence.
Qed.

(** And if some are: every word of known characters, without dropout. *)
Theorem C56_known pop pop' vocab merges prefix m m' draws draws' s :
  heap_ok pop -> heap_ok pop' -> built vocab merges prefix m -> writable vocab -> same_bpe m m' ->
  b_dropout m = DNone \/ b_dropout m = DZero ->
  (forall p c q, s = p ++ c :: q -> known_char m (is_nil p) (is_nil q) c) ->
  bpe_tokenize pop' m' draws' s = bpe_tokenize pop m draws s.
Proof.
  intros HP HP' B WR SB DO AK. pose proof (known_same pop pop' _ _ _ _ _ _ HP HP' B WR SB AK) as X. pose proof (same_bpe_maps _ _ SB) as [SI _]. destruct SB as (_ & _ & _ & E1 & E2).
  unfold bpe_tokenize, tokenize_plain. rewrite SI, X. injection E1 as -> _ _ _. injection E2 as _ _ ->. destruct DO as [-> | ->]; reflexivity.
Qed.

(** *** Where it fails: two tokens of the same id, one is not saved. *)
Definition unit_floats : floats unit := mkFloats (fun _ => true) (fun _ => tt) (fun _ => tt) (fun _ => DNone).
Definition insert_rank (e : (N * N) * (N * N)) := fix go l := match l with [] => [e] | x :: l' => if N.leb (fst (snd e)) (fst (snd x)) then e :: x :: l' else x :: go l' end.
Definition sort_rank (l : list ((N * N) * (N * N))) := fold_right insert_rank [] l.

Theorem C56_duplicate_refuted :
  exists vocab m j m', built vocab [] None m /\ bpe_to_json unit_floats sort_rank m = Ok j /\ bpe_of_json unit_floats j = Ok m' /\
    b_id m [97%N] = Some 0%N /\ b_id m' [97%N] = None.
Proof.
  set (vocab := [([97], 0); ([98], 0)]%N). destruct (bpe_build vocab [] DNone None None None false false false) as [m| |] eqn:B; [|vm_compute in B; discriminate|vm_compute in B; discriminate].
  exists vocab, m. destruct (bpe_to_json unit_floats sort_rank m) as [j| |] eqn:J; [|vm_compute in B; injection B as <-; vm_compute in J; discriminate|vm_compute in B; injection B as <-; vm_compute in J; discriminate].
  exists j. destruct (bpe_of_json unit_floats j) as [m'| |] eqn:L; [|vm_compute in B; injection B as <-; vm_compute in J; injection J as <-; vm_compute in L; discriminate|vm_compute in B; injection B as <-; vm_compute in J; injection J as <-; vm_compute in L; discriminate].
  exists m'. split; [split; [apply (nodup_check str_eqb); [apply str_eqb_eq|vm_compute; reflexivity]|do 6 eexists; exact B]|].
  vm_compute in B; injection B as <-; vm_compute in J; injection J as <-; vm_compute in L; injection L as <-. split; [reflexivity|]. split; [reflexivity|]. split; vm_compute; reflexivity.
Qed.

(** The id 2^32 - 1: [max + 1] overflows. *)
Theorem C56_max_id_refuted :
  exists m, built [([97%N], 2 ^ 32 - 1)%N] [] None m /\ bpe_to_json unit_floats sort_rank m = Panic.
Proof.
  destruct (bpe_build [([97%N], 2 ^ 32 - 1)%N] [] DNone None None None false false false) as [m| |] eqn:B; [|vm_compute in B; discriminate|vm_compute in B; discriminate].
  exists m. split; [split; [repeat constructor; intros []|do 6 eexists; exact B]|]. vm_compute in B. injection B as <-. vm_compute. reflexivity.
Qed.

(** A field "merges" with lines, as older versions wrote it: the same model. *)
Theorem C56_legacy_merges {W} (l : list (str * str)) : Forall plain_merge l -> l <> [] ->
  exists mt, @as_merge_type W (JArr (map (fun ab => JStr (fst ab ++ [32%N] ++ snd ab)) l)) = Ok mt /\ (match mt with MTuple l => Ok l | MLegacy l => convert_merges l end) = Ok l.
Proof.
  intros H NE. exists (MLegacy (map (fun ab => fst ab ++ [32%N] ++ snd ab) l)). split.
  - unfold as_merge_type. destruct l as [|ab l]; [congruence|]. cbn [as_vec map map_res as_pair bind]. clear. cbn [as_str bind].
    assert (X : map_res (@as_str W) (map (fun ab => JStr (fst ab ++ [32%N] ++ snd ab)) l) = Ok (map (fun ab => fst ab ++ [32%N] ++ snd ab) l)) by (induction l as [|y l IH]; [reflexivity|]; cbn [map map_res as_str bind]; rewrite IH; reflexivity).
    rewrite X. reflexivity.
  - pose proof (merges_text l H) as X. rewrite <- X. unfold convert_merges. cbn [app]. rewrite lines_line by (vm_compute; intuition discriminate). cbn [filter app]. replace (starts_with _ (chomp _)) with true by (vm_compute; reflexivity). cbn [negb].
    f_equal. f_equal. clear -H. symmetry. assert (Y : lines [] (flat_map (fun x : str => x ++ [10%N]) (map (fun ab : str * str => fst ab ++ [32%N] ++ snd ab) l)) = map (fun ab => fst ab ++ [32%N] ++ snd ab) l).
    { rewrite lines_all.
      - rewrite map_map. apply map_ext_in. intros [a b] I. rewrite Forall_forall in H. destruct (H _ I) as (_ & _ & P3 & _). cbn [fst snd] in *. apply chomp_id. intros s E. revert P3 E. clear. intros P3 E.
        destruct b as [|b0 b1] eqn:EB using rev_ind; [|clear IHb1]; cbn in E.
        + apply (app_inj_tail a s 32%N 13%N) in E. destruct E as [_ E]. discriminate E.
        + change (a ++ 32%N :: b1 ++ [b0]) with (a ++ (32%N :: b1) ++ [b0]) in E. rewrite app_assoc in E. apply app_inj_tail in E. destruct E as [_ ->]. eapply P3. reflexivity.
      - intros x I. apply in_map_iff in I. destruct I as ([a b] & <- & I). rewrite Forall_forall in H. destruct (H _ I) as ([_ N1] & [_ N2] & _). cbn [fst snd] in *.
        rewrite !in_app_iff. intros [Z|[[Z|[]]|Z]]; [auto|discriminate|auto]. }
    etransitivity; [|exact Y]. f_equal. clear. induction l as [|[a b] l IH]; [reflexivity|]. cbn [map flat_map fst snd]. etransitivity; [apply f_equal; exact IH|]. cbn [app]. rewrite <- !app_assoc. cbn [app]. rewrite <- !app_assoc. reflexivity.
Qed.

(** Non-vacuity. *)
Lemma sort_rank_ok : rank_sort sort_rank.
Proof.
  intros l. unfold sort_rank. induction l as [|e l [P SS]]; cbn [fold_right]; [split; constructor|].
  assert (X : forall l, Permutation (e :: l) (insert_rank e l)).
  { clear. induction l as [|x l IH]; cbn; [apply Permutation_refl|]. destruct (N.leb _ _); [apply Permutation_refl|]. eapply perm_trans; [apply perm_swap|]. constructor. exact IH. }
  split; [eapply perm_trans; [constructor; exact P|apply X]|]. revert SS. generalize (fold_right insert_rank [] l). clear P X. induction l0 as [|x l0 IH]; intros SS; cbn; [repeat constructor|].
  inversion SS as [|? ? SS' FA]; subst. destruct (N.leb _ _) eqn:E.
  - constructor; [exact SS|]. constructor; [lia|]. eapply Forall_impl; [|exact FA]. cbn. intros y H. lia.
  - constructor; [apply IH; exact SS'|]. apply Forall_forall. intros y I. assert (I' : In y (e :: l0)).
    { clear -I. induction l0 as [|z l0 IH]; cbn in *; [tauto|]. destruct (N.leb _ _); cbn in *; [tauto|]. destruct I as [->|I]; [tauto|]. destruct (IH I); tauto. }
    destruct I' as [->|I']; [lia|]. rewrite Forall_forall in FA. apply FA. exact I'.
Qed.

Definition z_floats : floats Z := mkFloats (fun w => negb (Z.eqb w 99)) Z.of_N (fun d => match d with DPositive => 50 | _ => 0 end)%Z (fun w => if Z.eqb w 0 then DZero else if Z.leb w 100 then DPositive else DOutside).
Definition z_arith : arith Z := mkArith 0%Z 1000%Z Z.add Z.gtb (fun x => x - 10)%Z.

Example C56_example : rank_sort sort_rank /\ floats_ok z_floats /\ built ex_vocab ex_merges (Some [35%N]) ex_bpe /\ writable ex_vocab /\ NoDup ex_merges /\
  match bpe_to_json z_floats sort_rank ex_bpe with Ok j => model_of_json z_arith z_floats j = Ok (MBpe ex_bpe) | _ => False end.
Proof.
  split; [apply sort_rank_ok|]. split; [intros d [-> | ->]; split; reflexivity|]. split; [apply ex_bpe_built|]. split; [|split].
  - split; [apply (nodup_check str_eqb); [apply str_eqb_eq|vm_compute; reflexivity]|]. split; [apply (nodup_check N.eqb); [apply N.eqb_eq|vm_compute; reflexivity]|].
    intros t i I. cbn in I. repeat (destruct I as [E|I]; [injection E as <- <-; lia|]). destruct I.
  - repeat constructor; cbn; intuition discriminate.
  - vm_compute. reflexivity.
Qed.

(** ** C66: every kind of model *)

(** Saving succeeds, and any loader of models gives back the same model from what
    is saved, whatever the order of the fields, with or without the field "type". *)
Theorem C66_saved {W} (A : arith W) (F : floats W) by_rank (m : @model W) :
  rank_sort by_rank -> floats_ok F -> savable A F m ->
  exists j, model_to_json F by_rank m = Ok j /\
    forall j', rearranged j j' -> exists m', model_of_json A F j' = Ok m' /\ model_of_json A F (without_type j') = Ok m' /\ same_model m m'.
Proof.
  intros RS FO S. destruct m as [m|m|m|m]; cbn [model_to_json savable] in *.
  - destruct S as (vocab & merges & prefix & B & WR). destruct (bpe_saved A F by_rank _ _ _ _ RS FO B WR) as (j & E & H). exists j. split; [exact E|]. intros j' R.
    destruct (H j' R) as (m' & H1 & H2 & H3 & H4). exists (MBpe m'). split; [exact H3|]. split; [|exact H4].
    destruct j' as [| | | | |l|l]; try discriminate H2. rewrite untyped. unfold untagged, load_bpe. rewrite H2. reflexivity.
  - destruct S as (WR & MX). destruct (wp_saved A F m WR MX) as (j & E & H). exists j. split; [exact E|]. intros j' R. destruct (H j' R) as (m' & H1 & H2 & H3 & H4). exists (MWordPiece m'). split; [exact H3|]. split; [|exact H4].
    unfold wp_to_json in E. destruct (ordered_vocab _) as [v| |]; try discriminate. cbn [bind] in E. injection E as <-. destruct (rearranged_keys _ _ R) as (l & -> & P).
    rewrite untyped. unfold untagged, load_bpe, load_wordpiece. rewrite H2. cbn [without_type]. rewrite bpe_missing; [reflexivity|]. apply not_key. intros I.
    apply (Permutation_in _ (Permutation_sym P)) in I. revert I. vm_compute. intuition discriminate.
  - destruct (wl_saved A F m S) as (j & E & H). exists j. split; [exact E|]. intros j' R. destruct (H j' R) as (m' & H1 & H2 & H3 & H4). exists (MWordLevel m'). split; [exact H3|]. split; [|exact H4].
    unfold wl_to_json in E. destruct (ordered_vocab _) as [v| |]; try discriminate. cbn [bind] in E. injection E as <-. destruct (rearranged_keys _ _ R) as (l & -> & P).
    rewrite untyped. unfold untagged, load_bpe, load_wordpiece, load_wordlevel. rewrite H2. cbn [without_type]. rewrite bpe_missing, wp_missing; [reflexivity| |]; apply not_key; intros I;
    apply (Permutation_in _ (Permutation_sym P)) in I; revert I; vm_compute; intuition discriminate.
  - exists (uni_to_json F m). split; [reflexivity|]. intros j' R. destruct (uni_saved A F m S j' R) as (H1 & H2 & H3). exists (MUnigram m). split; [exact H3|]. split; [|reflexivity].
    unfold uni_to_json in R. destruct (rearranged_keys _ _ R) as (l & -> & P).
    rewrite untyped. unfold untagged, load_bpe, load_wordpiece, load_wordlevel, load_unigram. rewrite H2. cbn [without_type]. rewrite bpe_missing, wp_missing, wl_missing; [reflexivity| | |]; apply not_key; intros I;
    apply (Permutation_in _ (Permutation_sym P)) in I; revert I; vm_compute; intuition discriminate.
Qed.

(** The same WordLevel and WordPiece models tokenize alike. *)
Theorem C66_tokenize {W} (m m' : @model W) s : same_model m m' ->
  match m, m' with
  | MWordPiece m, MWordPiece m' => wp_tokenize m' s = wp_tokenize m s
  | MWordLevel m, MWordLevel m' => wl_tokenize m' s = wl_tokenize m s
  | _, _ => True
  end.
Proof.
  intros H. destruct m as [m|m|m|m], m' as [m'|m'|m'|m']; try exact Logic.I; cbn [same_model] in H.
  - destruct H as [SM E]. injection E as E1 E2 E3. apply same_wp_tokenize; try assumption. intros t. apply same_map_aget. exact SM.
  - destruct H as [SM E]. apply same_wl_tokenize; [|exact E]. intros t. apply same_map_aget. exact SM.
Qed.

(** A score that is not finite is written as [null], which cannot be read. *)
Theorem C66_unigram_nonfinite_refuted :
  exists m, uni_from z_arith [([97%N], 99%Z)] None false = Ok m /\ uni_of_json z_arith z_floats (uni_to_json z_floats m) = Err EFile.
Proof. eexists. split; [reflexivity|vm_compute; reflexivity]. Qed.

Example C66_example :
  savable z_arith z_floats (MWordPiece (mkWP [([97], 0); ([98], 7); ([63], 2)]%N [63%N] [35%N] 100)) /\
  savable z_arith z_floats (MWordLevel (mkWL [([97], 0); ([98], 7); ([63], 2)]%N [63%N])) /\
  (exists m, uni_from z_arith [([97%N], (-3)%Z); ([98%N], (-4)%Z)] (Some 0%N) true = Ok m /\ savable z_arith z_floats (MUnigram m)).
Proof.
  assert (WR : writable [([97], 0); ([98], 7); ([63], 2)]%N).
  { split; [repeat constructor; cbn; intuition discriminate|]. split; [repeat constructor; cbn; intuition discriminate|]. intros t i I. cbn in I. repeat (destruct I as [E|I]; [injection E as <- <-; lia|]). destruct I. }
  split; [split; [exact WR|vm_compute; reflexivity]|]. split; [exact WR|]. eexists. split; [reflexivity|]. split; [exists [([97%N], (-3)%Z); ([98%N], (-4)%Z)], (Some 0%N), true; reflexivity|]. split; [repeat constructor|cbn; lia].
Qed.

(** ** C67: files *)

(** BPE: [vocab.json] and [merges.txt], if every merge fits in a line. *)
Theorem C67_bpe {W} by_rank vocab merges prefix m :
  rank_sort by_rank -> built vocab merges prefix m -> writable vocab -> Forall plain_merge merges ->
  exists v text, @bpe_save W by_rank m = Ok (v, text) /\
    forall v', rearranged v v' -> exists m', bpe_from_file v' text (b_dropout m) (b_unk m) (b_prefix m) (b_suffix m) (b_fuse m) (b_fallback m) (b_ignore_merges m) = Ok m' /\ same_bpe m m'.
Proof.
  intros RS B WR PM. destruct (merge_texts_ok _ _ _ _ B WR _ RS) as (ml & EM & F2). destruct (ordered_vocab_ok (W := W) _ WR) as (v & E & P).
  pose proof (built_facts_of _ _ _ _ B) as BF. pose proof B as B0. destruct B0 as [_ (d & unk & sf & fu & fb & ig & BB)].
  destruct (C36_fields _ _ _ _ _ _ _ _ _ _ BB) as (ED & EU & EP & ES & EF & EFB & EI & _ & ET). assert (DO : d <> DOutside) by (intros ->; discriminate BB).
  do 2 eexists. split; [unfold bpe_save; rewrite (bf_vocab_r _ _ _ _ BF), E; cbn [bind]; rewrite EM; reflexivity|]. intros v0 R. apply re_jvocab in R. destruct R as (v' & -> & PV).
  assert (PV' : Permutation vocab v') by (eapply perm_trans; eassumption). assert (WV : writable v') by (eapply writable_perm; eassumption).
  destruct (proj2 (build_accepts v' ml d unk prefix sf fu fb ig)) as (m' & BM); [split; [exact DO|]; eapply saved_acceptable; eassumption|]. exists m'.
  assert (PL : Forall plain_merge ml). { apply Forall_forall. intros [a b] I. apply In_nth_error in I. destruct I as (k & I). destruct (saved_merge _ _ _ _ B WR _ RS _ F2 _ _ _ I) as (_ & _ & _ & I' & _). rewrite Forall_forall in PM. apply PM. exact I'. }
  rewrite ED, EU, EP, ES, EF, EFB, EI. split.
  - unfold bpe_from_file. rewrite read_vocab_jvocab by exact WV. rewrite merges_text by exact PL. cbn [bind]. rewrite BM. destruct d; try reflexivity. congruence.
  - destruct (C36_fields _ _ _ _ _ _ _ _ _ _ BM) as (ED' & EU' & EP' & ES' & EF' & EFB' & EI' & _ & ET').
    assert (B' : built v' ml prefix m') by (split; [apply WV|]; do 6 eexists; exact BM). pose proof (built_facts_of _ _ _ _ B') as BF'.
    split; [rewrite (bf_vocab _ _ _ _ BF), (bf_vocab _ _ _ _ BF'); split; [apply WV|exact PV']|]. split.
    + intros t i. rewrite (ET' t i), (ET t i); [|apply WR|apply WV]. split; apply Permutation_in; [apply Permutation_sym|]; exact PV'.
    + split; [exact (loaded_table _ _ _ _ B WR _ RS _ F2 _ _ PV' B')|]. rewrite ED, EU, EP, ES, EF, EFB, EI, ED', EU', EP', ES', EF', EFB', EI'. split; reflexivity.
Qed.

(** WordLevel: [vocab.json]. *)
Theorem C67_wordlevel {W} m : writable (l_vocab m) ->
  exists v, @wl_save W m = Ok v /\ forall v', rearranged v v' -> exists m', wl_from_file v' (l_unk m) = Ok m' /\ same_map (l_vocab m) (l_vocab m') /\ l_unk m' = l_unk m.
Proof.
  intros WR. destruct (ordered_vocab_ok (W := W) _ WR) as (v & E & P). eexists. split; [exact E|]. intros v0 R. apply re_jvocab in R. destruct R as (v' & -> & PV).
  assert (PV' : Permutation (l_vocab m) v') by (eapply perm_trans; eassumption). assert (WV : writable v') by (eapply writable_perm; eassumption).
  exists (mkWL v' (l_unk m)). split; [unfold wl_from_file; rewrite read_vocab_jvocab by exact WV; reflexivity|]. split; [split; [apply WV|exact PV']|reflexivity].
Qed.

(** WordPiece: [vocab.txt], if the ids are 0, 1, 2, ... and every token fits in a line. *)
Theorem C67_wordpiece is_ws by_id m :
  id_sort by_id -> is_ws 13%N = true -> dense (w_vocab m) -> (N.of_nat (length (w_vocab m)) <= 2 ^ 32)%N ->
  (forall t, In t (map fst (w_vocab m)) -> plain_token is_ws t) -> same_map (w_vocab m) (wp_read is_ws (wp_save by_id m)).
Proof. apply wp_text. Qed.

(** A [merges.txt] is read only if each of its lines, but those that begin with
    "#version", is two texts with one space between. *)
Lemma split_spaces_parts cur s : ~ In 32%N cur -> concat (map (fun x => 32%N :: x) (split_spaces cur s)) = 32%N :: cur ++ s /\ Forall (fun x => ~ In 32%N x) (split_spaces cur s).
Proof.
  revert cur. induction s as [|c s IH]; intros cur NI; cbn [split_spaces].
  - cbn [map concat]. split; [reflexivity|repeat constructor; exact NI].
  - destruct (N.eqb c 32) eqn:E.
    + apply N.eqb_eq in E. subst c. destruct (IH [] ltac:(intros [])) as [A B]. split; [|constructor; assumption]. cbn [map concat]. rewrite A. reflexivity.
    + apply N.eqb_neq in E. destruct (IH (cur ++ [c])) as [A B]; [rewrite in_app_iff; cbn; intuition congruence|]. split; [rewrite A, <- app_assoc; reflexivity|exact B].
Qed.
Theorem C67_lines {W} (v : json W) text d unk prefix suffix fuse fallback ignore m : bpe_from_file v text d unk prefix suffix fuse fallback ignore = Ok m ->
  forall line, In line (lines [] text) -> starts_with (key "#version") line = true \/ exists a b, line = a ++ [32%N] ++ b /\ ~ In 32%N a /\ ~ In 32%N b.
Proof.
  unfold bpe_from_file. intros H line I. destruct (starts_with (key "#version") line) eqn:E; [left; reflexivity|right].
  assert (X : exists l, convert_merges (lines [] text) = Ok l).
  { destruct (convert_merges (lines [] text)) as [l| |]; [eauto| |]; destruct d; try discriminate; destruct (read_vocab v); discriminate. }
  destruct X as [l X]. unfold convert_merges in X. assert (Y : exists ab, merge_line line = Ok ab).
  { assert (J : In line (filter (fun l => negb (starts_with (key "#version") l)) (lines [] text))) by (apply filter_In; rewrite E; auto). clear H I. revert l X.
    induction (filter _ _) as [|y ys IH]; [destruct J|]. intros l X. cbn [map_res] in X. destruct (merge_line y) as [ab| |] eqn:M; cbn [bind] in X; try discriminate.
    destruct (map_res merge_line ys) as [r| |]; cbn [bind] in X; try discriminate. destruct J as [<-|J]; [eauto|]. exact (IH J r eq_refl). }
  destruct Y as [ab Y]. unfold merge_line in Y. destruct (split_spaces_parts [] line (fun X => X)) as [A B]. destruct (split_spaces [] line) as [|a [|b [|]]]; try discriminate.
  cbn in A. injection A as A. inversion B as [|? ? NA B']; subst. inversion B' as [|? ? NB ?]; subst. exists a, b. split; [|auto]. rewrite app_nil_r. reflexivity.
Qed.

(** *** Where it fails *)
(** A part of a merge with a space, or that ends in a carriage return: the file
    cannot be loaded.  A part that starts like the header: the merge is lost. *)
Definition line_vocab (x : str) : list (str * N) := [(x, 0%N); ([98%N], 1%N); (x ++ [98%N], 2%N); ([98%N] ++ x, 3%N)].
Definition after_files (m : bpe) : res file_error bpe :=
  let! vt := @bpe_save unit sort_rank m in bpe_from_file (fst vt) (snd vt) DNone None None None false false false.

Theorem C67_space_refuted :
  exists m, built (line_vocab [97; 32]%N) [([97; 32], [98])]%N None m /\ after_files m = Err EFile.
Proof.
  eexists. split; [split; [|exists DNone, None, None, false, false, false; reflexivity]|]; [|vm_compute; reflexivity].
  apply (nodup_check str_eqb); [apply str_eqb_eq|vm_compute; reflexivity].
Qed.
Theorem C67_return_refuted :
  exists m, built (line_vocab [97; 13]%N) [([98], [97; 13])]%N None m /\ after_files m = Err EFile.
Proof.
  eexists. split; [split; [|exists DNone, None, None, false, false, false; reflexivity]|]; [|vm_compute; reflexivity].
  apply (nodup_check str_eqb); [apply str_eqb_eq|vm_compute; reflexivity].
Qed.
Theorem C67_header_refuted :
  exists m m', built (line_vocab (key "#version")) [(key "#version", [98%N])] None m /\ after_files m = Ok m' /\ b_merges m <> [] /\ b_merges m' = [].
Proof.
  eexists. eexists. split; [split; [|exists DNone, None, None, false, false, false; reflexivity]|split; [|split]]; [|vm_compute; reflexivity|vm_compute; discriminate|vm_compute; reflexivity].
  apply (nodup_check str_eqb); [apply str_eqb_eq|vm_compute; reflexivity].
Qed.

(** WordPiece: a hole in the ids, and a token that ends in whitespace. *)
Theorem C67_hole_refuted :
  exists m, NoDup (map fst (w_vocab m)) /\ NoDup (map snd (w_vocab m)) /\ wp_read (N.eqb 32) (wp_save (fun l => l) m) = [([97], 0); ([98], 1)]%N /\ w_vocab m = [([97], 0); ([98], 2)]%N.
Proof. exists (mkWP [([97], 0); ([98], 2)]%N [63%N] [35%N] 100). split; [repeat constructor; cbn; intuition discriminate|]. split; [repeat constructor; cbn; intuition discriminate|]. split; vm_compute; reflexivity. Qed.
Theorem C67_blank_refuted :
  exists m, dense (w_vocab m) /\ wp_read (N.eqb 32) (wp_save (fun l => l) m) = [([97], 1)]%N /\ w_vocab m = [([97], 0); ([97; 32], 1)]%N.
Proof. exists (mkWP [([97], 0); ([97; 32], 1)]%N [63%N] [35%N] 100). split; [split; [repeat constructor; cbn; intuition discriminate|apply Permutation_refl]|]. split; vm_compute; reflexivity. Qed.

(** Non-vacuity. *)
Example C67_example : Forall plain_merge ex_merges /\
  (let m := mkWP [([97], 1); ([98; 32; 99], 0); ([], 2)]%N [63%N] [35%N] 100 in dense (w_vocab m) /\ (forall t, In t (map fst (w_vocab m)) -> plain_token (fun c => N.eqb c 32 || N.eqb c 13) t) /\
     wp_read (fun c => N.eqb c 32 || N.eqb c 13) (wp_save (fun _ => [([98; 32; 99], 0); ([97], 1); ([], 2)]%N) m) = [([98; 32; 99], 0); ([97], 1); ([], 2)]%N).
Proof.
  split.
  - assert (X : forall (b : str) (s : str), b = s ++ [13%N] -> exists x, last b x = 13%N) by (intros b s ->; exists 0%N; apply last_last).
    repeat constructor; cbn; try (intuition discriminate); intros s E; try discriminate; apply (f_equal (fun l => last l 0%N)) in E; rewrite last_last in E; discriminate.
  - split; [split; [repeat constructor; cbn; intuition discriminate|apply perm_swap]|]. split; [|vm_compute; reflexivity].
    intros t I. cbn in I. destruct I as [<-|[<-|[<-|[]]]]; (split; [cbn; intuition discriminate|]); intros s c E; apply (f_equal (fun l => last l 0%N)) in E || idtac; try (rewrite last_last in E; cbn in E; subst c; reflexivity).
Qed.
