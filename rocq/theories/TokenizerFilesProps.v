(** C72: saving a tokenizer and loading it again. *)
From Coq Require Import String.
From Coq Require Import Sorting.Permutation Sorting.Sorted.
From Verif Require Import Base StrBytes AMap EncodingModel TruncPadModel NormModel PreTokModel BpeWordModel BpeModel BpeSpec RoundTripModel WordPieceModel UnigramModel AddedModel AddedSpec ProcessorsModel TokenizerModel ModelFilesModel ModelFilesSpec ModelFilesProps ComponentFilesModel ComponentFilesSpec ComponentFilesProps TokenizerFilesModel TokenizerFilesSpec TokenizerFilesProofs TokenizerFilesProofs2 TokenizerFilesProofs3.
From Verif Require NormalizersProps PreTokenizersProps.

(** A tokenizer that was made by any calls, with tokens of one content being the same
    token, can be saved, and the file loads, whatever the order of the fields of its
    objects.  No call can tell the loaded tokenizer from the saved one with
    [encode_special_tokens] off. *)
Theorem C72_tokenizer {W} (P : platform W) m g ts : platform_ok P -> model_sound P m -> made P m g ts -> consistent ts -> parts_valid P g ->
  exists j, tokenizer_to_json P g = Ok j /\ forall j', rearranged j j' ->
    exists g', tokenizer_of_json P j' = Ok g' /\ same_answers P (encode_special_tokens g false) g'.
Proof.
  intros PO MS MD CO PV. destruct (tokenizer_saved P m _ ts PO MS (md_encode_special P m g ts false MD) CO PV) as (j & E & H).
  exists j. split; [exact E|]. intros j' R. destruct (H j' R) as (m' & q & av' & L & S1 & S2 & S3 & S4 & S5). exists (loaded_config (encode_special_tokens g false) m' q av'). split; [exact L|].
  apply loaded_same; try assumption. reflexivity.
Qed.

(** So if it was off, none can. *)
Theorem C72_same {W} (P : platform W) m g ts : platform_ok P -> model_sound P m -> made P m g ts -> consistent ts -> parts_valid P g -> av_encode_special (g_added g) = false ->
  exists j, tokenizer_to_json P g = Ok j /\ forall j', rearranged j j' -> exists g', tokenizer_of_json P j' = Ok g' /\ same_answers P g g'.
Proof.
  intros PO MS MD CO PV ES. destruct (C72_tokenizer P m g ts PO MS MD CO PV) as (j & E & H). exists j. split; [exact E|]. intros j' R. destruct (H j' R) as (g' & L & S).
  exists g'. split; [exact L|]. replace g with (encode_special_tokens g false); [exact S|]. destruct g as [n p m0 q d [a1 a2 a3 a4 a5 a6 a7] t pd]. cbn in ES. subst a7. reflexivity.
Qed.

(** A file that loads has a model, no other fields than the nine, and if it has a
    version, it is 1.0. *)
Theorem C72_fields {W} (P : platform W) l g : tokenizer_of_json P (JObj l) = Ok g ->
  In (key "model") (map fst l) /\ forall k v, In (k, v) l -> In k field_names /\ (k = key "version" -> v = JStr (key "1.0")).
Proof.
  cbn [tokenizer_of_json]. destruct (each_field (part P) parts0 l) as [st| |] eqn:E; cbn [bind]; try discriminate. apply parts_known in E. destruct E as [A B].
  intros H. split; [|exact A]. destruct B as [B|B]; [|cbn in B; congruence|exact B]. destruct (pa_model st); discriminate.
Qed.

(** The model alone is enough: the rest has the defaults of a new tokenizer. *)
Theorem C72_minimal {W} (P : platform W) v m : model_of_json (pf_arith P) (pf_floats P) v = Ok m -> tokenizer_of_json P (JObj [(key "model", v)]) = Ok (tokenizer_new m).
Proof. intros H. cbn [tokenizer_of_json each_field part parts0]. cbn -[model_of_json]. rewrite H. reflexivity. Qed.

(** The truncation of an older file has no direction: it is on the right.  A padding
    without "pad_to_multiple_of" has none. *)
Theorem C72_defaults {W} (P : platform W) v m n k s d i t w : model_of_json (pf_arith P) (pf_floats P) v = Ok m -> (n < 2 ^ 64)%N -> (k < 2 ^ 64)%N -> (i < 2 ^ 32)%N -> (t < 2 ^ 32)%N ->
  exists g, tokenizer_of_json P (JObj [(key "truncation", JObj [(key "max_length", JInt n); (key "strategy", of_strategy s); (key "stride", JInt k)]);
                                       (key "padding", JObj [(key "strategy", JStr (key "BatchLongest")); (key "direction", of_direction d); (key "pad_id", JInt i); (key "pad_type_id", JInt t); (key "pad_token", JStr w)]);
                                       (key "model", v)]) = Ok g /\
    g_truncation g = Some (mkTruncParams DRight (N.to_nat n) s (N.to_nat k)) /\ g_padding g = Some (mkPadParams BatchLongest d None i t w).
Proof.
  intros M Hn Hk Hi Ht. apply N.ltb_lt in Hn, Hk, Hi, Ht. eexists. split.
  - cbn [tokenizer_of_json each_field]. destruct s, d; cbn -[model_of_json N.ltb N.pow N.to_nat]; unfold as_nat, as_usize, as_u32; rewrite Hn; cbn -[model_of_json N.ltb N.pow N.to_nat]; rewrite Hk;
      cbn -[model_of_json N.ltb N.pow N.to_nat]; rewrite Hi; cbn -[model_of_json N.ltb N.pow N.to_nat]; rewrite Ht; cbn -[model_of_json N.ltb N.pow N.to_nat]; rewrite M; reflexivity.
  - split; reflexivity.
Qed.

(** Loading panics only in two ways. *)
Theorem C72_no_panic {W} (P : platform W) (j : json W) : tokenizer_of_json P j = Panic -> exists l k v, j = JObj l /\ In (k, v) l /\ load_panic k v.
Proof. exact (file_panic P j). Qed.

(** ** What does not come back *)
Fixpoint distinct (l : list (str * N)) : bool := match l with [] => true | (p, _) :: l' => negb (str_mem p (map fst l')) && distinct l' end.
Lemma distinct_nodup l : distinct l = true <-> NoDup (map fst l).
Proof.
  induction l as [|[p i] l IH]; cbn [distinct map fst]; [split; [constructor|reflexivity]|]. rewrite andb_true_iff, negb_true_iff, IH. split.
  - intros [H D]. constructor; [|exact D]. intros I. assert (str_mem p (map fst l) = true) by (apply existsb_exists; exists p; split; [exact I|apply str_eqb_refl]). congruence.
  - intros D. inversion D as [|? ? NI D']; subst. split; [|exact D']. destruct (str_mem p (map fst l)) eqn:E; [|reflexivity]. exfalso. apply NI. apply existsb_exists in E.
    destruct E as (x & I & E). apply str_eqb_eq in E. subst x. exact I.
Qed.
Definition ex_platform : platform Z :=
  mkPlatform z_arith z_floats sort_rank (fun l => l) ex_engines NormalizersProps.ex_tables PreTokenizersProps.toy_tables
    (N.eqb 32) (fun c => (97 <=? c)%N && (c <=? 122)%N) (N.eqb 32) distinct (fun l => match l with [] => None | x :: l => Some (x, l) end) (fun _ _ => false).
Lemma ex_platform_ok : platform_ok ex_platform.
Proof.
  constructor; cbn.
  - apply sort_rank_ok.
  - intros l. apply Permutation_refl.
  - intros d [-> | ->]; split; reflexivity.
  - intros l l' Q. rewrite !distinct_nodup. apply Permutation_NoDup. apply Permutation_map. exact Q.
  - intros l. apply distinct_nodup.
Qed.
Definition ex_wp : @model Z := MWordPiece (mkWP [([97], 0); ([98], 1); ([35; 35; 99], 2); ([63], 3)]%N [63%N] [35; 35]%N 100).
Lemma ex_wp_sound : model_sound ex_platform ex_wp.
Proof.
  split; [|split; [|exact Logic.I]].
  - split; [|reflexivity]. split; [repeat constructor; cbn; intuition discriminate|]. split; [repeat constructor; cbn; intuition discriminate|].
    intros t i H. cbn in H. repeat destruct H as [H|H]; try (injection H as <- <-; reflexivity). contradiction.
  - intros t i H. apply (aget_In str_eqb str_eqb_eq) in H. cbn in H. repeat destruct H as [H|H]; try (injection H as <- <-; reflexivity). contradiction.
Qed.

Definition ex_special : added_token := mkAdded [91; 115; 93]%N false false false false true.
Definition ex_plain : added_token := mkAdded [65; 98]%N false true false true false.
Definition ex_base : config Z := with_post_processor (fst (with_normalizer ex_platform (tokenizer_new ex_wp) (Some CnLowercase))) (Some (CqTemplate ex_template)).
Definition ex_config : config Z :=
  put_padding (fst (tokenizer_add ex_platform ex_base [ex_special; ex_plain])) (Some (mkPadParams (Fixed 4) DRight (Some 3) 3%N 0%N [63%N])).
Lemma ex_base_made : made ex_platform ex_wp ex_base [].
Proof. apply md_post. eapply md_normalizer; [apply md_new|]. vm_compute. reflexivity. Qed.
Lemma ex_config_made : made ex_platform ex_wp ex_config [ex_special; ex_plain].
Proof. apply md_padding. eapply (md_add _ _ _ []); [apply ex_base_made|]. vm_compute. reflexivity. Qed.
Definition ex_text : encode_input := Single (Raw [65; 98; 91; 115; 93; 97; 99]%N).

(** [encode_special_tokens] is not saved. *)
Theorem C72_encode_special_refuted : exists g j g' e e',
  made ex_platform ex_wp g [ex_special; ex_plain] /\ tokenizer_to_json ex_platform g = Ok j /\ tokenizer_of_json ex_platform j = Ok g' /\
  encode (runtime ex_platform g) OByte ex_text true = Ok e /\ encode (runtime ex_platform g') OByte ex_text true = Ok e' /\
  ids e = [7; 5; 3; 3; 3; 3]%N /\ ids e' = [7; 5; 4; 0; 2; 3]%N.
Proof.
  exists (encode_special_tokens ex_config true). eexists _, _, _, _. split; [apply md_encode_special; apply ex_config_made|].
  split; [vm_compute; reflexivity|]. split; [vm_compute; reflexivity|]. split; [vm_compute; reflexivity|]. split; [vm_compute; reflexivity|]. split; reflexivity.
Qed.

(** A token that is given again without being special stays special until the
    tokenizer is saved and loaded: then decoding keeps it. *)
Definition ex_again : added_token := mkAdded [91; 115; 93]%N false false false false false.
Theorem C72_again_refuted : exists g j g',
  made ex_platform ex_wp g [ex_special; ex_again] /\ tokenizer_to_json ex_platform g = Ok j /\ tokenizer_of_json ex_platform j = Ok g' /\
  decode_ids ex_platform g true [0; 4; 1]%N = Ok [97; 32; 98]%N /\ decode_ids ex_platform g' true [0; 4; 1]%N = Ok [97; 32; 91; 115; 93; 32; 98]%N.
Proof.
  exists (fst (tokenizer_add ex_platform ex_base [ex_special; ex_again])). eexists _, _. split; [eapply (md_add _ _ _ []); [apply ex_base_made|vm_compute; reflexivity]|].
  split; [vm_compute; reflexivity|]. split; [vm_compute; reflexivity|]. split; vm_compute; reflexivity.
Qed.

(** The truncation of a file is not checked: one that [with_truncation] refuses
    loads, and then encoding panics. *)
Theorem C72_truncation_refuted : exists j g',
  with_truncation (runtime ex_platform ex_base) (Some (mkTruncParams DRight 2 LongestFirst 2)) = Err tt /\
  tokenizer_to_json ex_platform (put_truncation ex_base (Some (mkTruncParams DRight 2 LongestFirst 2))) = Ok j /\ tokenizer_of_json ex_platform j = Ok g' /\
  encode (runtime ex_platform g') OByte (Single (Raw [97; 99; 99]%N)) true = Panic.
Proof. eexists _, _. split; [vm_compute; reflexivity|]. split; [vm_compute; reflexivity|]. split; [vm_compute; reflexivity|]. vm_compute. reflexivity. Qed.

(** A merge that does not fit its vocabulary makes the loader panic, instead of
    being an error. *)
Theorem C72_merge_refuted : exists v : json Z,
  v = JObj [(key "type", JStr (key "BPE")); (key "vocab", JObj [(key "a", JInt 0); (key "b", JInt 1)]); (key "merges", JArr [JArr [JStr (key "a"); JStr (key "b")]])] /\
  tokenizer_of_json ex_platform (JObj [(key "model", v)]) = Panic.
Proof. eexists. split; [reflexivity|]. vm_compute. reflexivity. Qed.

(** ** Examples *)
Example C72_example :
  platform_ok ex_platform /\ model_sound ex_platform ex_wp /\ made ex_platform ex_wp ex_config [ex_special; ex_plain] /\
  consistent [ex_special; ex_plain] /\ parts_valid ex_platform ex_config /\ av_encode_special (g_added ex_config) = false /\
  (exists e, encode (runtime ex_platform ex_config) OByte ex_text true = Ok e /\ ids e = [7; 5; 4; 0; 2; 3]%N).
Proof.
  split; [apply ex_platform_ok|]. split; [apply ex_wp_sound|]. split; [apply ex_config_made|]. split.
  { intros t u [<-|[<-|[]]] [<-|[<-|[]]]; try reflexivity; intros H; vm_compute in H; discriminate. }
  split; [|split; [reflexivity|]].
  - split; [exact Logic.I|]. split; [exact Logic.I|]. split; [cbn; repeat split; repeat constructor; cbn; intuition discriminate|].
    split; [exact Logic.I|]. split; [exact Logic.I|]. split; [repeat split; reflexivity|].
    intros i t H. apply (aget_In N.eqb N.eqb_eq) in H. vm_compute in H. destruct H as [H|[H|[]]]; injection H as <- _; reflexivity.
  - eexists. split; [vm_compute; reflexivity|reflexivity].
Qed.
