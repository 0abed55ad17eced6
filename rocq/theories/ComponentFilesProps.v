(** * C71: saving and loading normalizers, pre-tokenizers, post-processors and decoders *)
From Coq Require Import String.
From Verif Require Import Base StrBytes AMap EncodingModel NormModel PatternModel DecodersModel ProcessorsModel NormalizersModel PreTokenizersModel ModelFilesModel ModelFilesSpec ModelFilesProofs ComponentFilesModel ComponentFilesSpec ComponentFilesProofs ComponentFilesProofs2 ComponentFilesProofs3.

(** What is saved loads to the same component, whatever the order of the fields,
    at any depth of sequences. *)
Theorem C71_normalizer {W} (E : engines) c (j : json W) : norm_valid E c -> rearranged (norm_to_json c) j -> norm_of_json E j = Ok c.
Proof. intros V R. exact (norm_round E c V j R). Qed.
Theorem C71_pre_tokenizer {W} (E : engines) c (j : json W) : pre_valid E c -> rearranged (pre_to_json c) j -> pre_of_json E j = Ok c.
Proof. intros V R. exact (pre_round E c V j R). Qed.
Theorem C71_decoder {W} (E : engines) c (j : json W) : dec_valid E c -> rearranged (dec_to_json c) j -> dec_of_json E j = Ok c.
Proof. intros V R. exact (dec_round E c V j R). Qed.
(** For post-processors the special tokens of templates are in some order. *)
Theorem C71_processor {W} by_key c (j : json W) : key_sort by_key -> proc_valid c -> rearranged (proc_to_json by_key c) j ->
  exists c', proc_of_json j = Ok c' /\ same_proc c c'.
Proof. intros S V R. exact (proc_round by_key S c V j R). Qed.

(** Which makes no difference: the loaded post-processor adds as many tokens and
    gives the same encodings. *)
Theorem C71_processor_alike c c' : same_proc c c' ->
  (forall is_pair, added_tokens (proc_of c') is_pair = added_tokens (proc_of c) is_pair) /\
  (forall is_ws e e2 add, process is_ws (proc_of c') e e2 add = process is_ws (proc_of c) e e2 add).
Proof. intros S. destruct (same_proc_alike c c' S) as [H1 H2]. split; [exact H1|]. intros. unfold process. rewrite H2. reflexivity. Qed.

(** The kinds whose reader does not look at "type" also load without it. *)
Theorem C71_untyped {W} (E : engines) (j : json W) :
  (forall c, norm_valid E c -> norm_untyped c -> rearranged (norm_to_json c) j -> norm_of_json E (without_type j) = Ok c) /\
  (forall c, dec_valid E c -> dec_untyped c -> rearranged (dec_to_json c) j -> dec_of_json E (without_type j) = Ok c) /\
  (forall by_key c, key_sort by_key -> proc_valid c -> proc_untyped c -> rearranged (proc_to_json by_key c) j -> exists c', proc_of_json (without_type j) = Ok c' /\ same_proc c c').
Proof.
  split; [intros c V U R; apply norm_round_untyped; assumption|]. split; [intros c V U R; apply dec_round_untyped; assumption|].
  intros by_key c S V U R. eapply proc_round_untyped; eassumption.
Qed.

(** Whatever is loaded, from any value, can be saved and loaded again. *)
Theorem C71_loaded_valid {W} (E : engines) (j : json W) :
  (forall c, norm_of_json E j = Ok c -> norm_valid E c) /\ (forall c, pre_of_json E j = Ok c -> pre_valid E c) /\
  (forall c, dec_of_json E j = Ok c -> dec_valid E c) /\ (forall c, proc_of_json j = Ok c -> proc_valid c).
Proof. split; [exact (good_norm E j)|]. split; [exact (good_pre E j)|]. split; [exact (good_dec E j)|exact (good_proc j)]. Qed.

(** Loading a pre-tokenizer, a decoder or a post-processor never panics, whatever
    the value; loading a normalizer only when an object in it says "Precompiled". *)
Theorem C71_no_panic {W} (E : engines) (j : json W) :
  pre_of_json E j <> Panic /\ dec_of_json E j <> Panic /\ proc_of_json j <> Panic /\ (norm_of_json E j = Panic -> mentions "Precompiled" j).
Proof. split; [exact (pre_calm E j)|]. split; [exact (dec_calm E j)|]. split; [exact (proc_calm j)|exact (norm_panic E j)]. Qed.

(** Files of older versions: the fields that did not exist get their defaults. *)
Theorem C71_defaults {W} (E : engines) rep a t sep cls : fits 32 (snd sep) -> fits 32 (snd cls) ->
  pre_of_json (W := W) E (JObj [(key "type", JStr (key "ByteLevel")); (key "add_prefix_space", JBool a); (key "trim_offsets", JBool t)]) = Ok (CpByteLevel a t true) /\
  pre_of_json (W := W) E (JObj [(key "type", JStr (key "Punctuation"))]) = Ok (CpPunctuation Isolated) /\
  pre_of_json (W := W) E (JObj [(key "type", JStr (key "Metaspace")); (key "replacement", JStr [rep]); (key "add_prefix_space", JBool true)]) = Ok (CpMetaspace rep SAlways true) /\
  dec_of_json (W := W) E (JObj [(key "type", JStr (key "Metaspace")); (key "replacement", JStr [rep]); (key "add_prefix_space", JBool true)]) = Ok (CdMetaspace rep SAlways true) /\
  norm_of_json (W := W) E (JObj [(key "clean_text", JBool a); (key "handle_chinese_chars", JBool t); (key "lowercase", JBool a)]) = Ok (CnBert a t None a) /\
  proc_of_json (W := W) (JObj [(key "sep", of_tok_id sep); (key "cls", of_tok_id cls)]) = Ok (CqBert sep cls).
Proof.
  intros V1 V2. split; [reflexivity|]. split; [reflexivity|]. split; [reflexivity|]. split; [reflexivity|]. split; [reflexivity|].
  destruct (proc_round_untyped (W := W) (fun m => m) (fun m => Permutation_refl m) (CqBert sep cls) (conj V1 V2) Logic.I _ (re_same _)) as (c' & H & S). inversion S; subst; exact H.
Qed.

(** ** What does not hold *)

(** A file of an older version with [add_prefix_space: false] is refused: the
    default scheme is "always". *)
Theorem C71_old_metaspace_refuted {W} (E : engines) : forall rep,
  pre_of_json (W := W) E (JObj [(key "type", JStr (key "Metaspace")); (key "replacement", JStr [rep]); (key "add_prefix_space", JBool false)]) = Err EFile.
Proof. reflexivity. Qed.

(** A normalizer of type "Precompiled" that cannot be read is a panic, not an
    error. *)
Theorem C71_precompiled_refuted {W} (E : engines) : norm_of_json (W := W) E (JObj [(key "type", JStr (key "Precompiled"))]) = Panic.
Proof. reflexivity. Qed.

(** The loader knows the type "Delimiter", but no object of this type loads. *)
Theorem C71_delimiter_refuted {W} (E : engines) (l : list (str * json W)) : type_name l = Some (key "Delimiter") -> pre_of_json E (JObj l) = Err EFile.
Proof.
  intros T. cbn [pre_of_json]. unfold pre_read, tagged_or. rewrite T. transitivity (delimiter_from l); [reflexivity|]. unfold delimiter_from, typed, need.
  unfold type_name in T. destruct (field "type" l) as [[[]|]| |]; try discriminate T. injection T as ->. reflexivity.
Qed.

(** A wrong type is not always refused, and can load as another kind. *)
Theorem C71_wrong_type_refuted {W} (E : engines) s sep cls : fits 32 (snd sep) -> fits 32 (snd cls) ->
  norm_of_json (W := W) E (JObj [(key "type", JStr (key "Unknown")); (key "prepend", JStr s)]) = Ok (CnPrepend s) /\
  proc_of_json (W := W) (JObj [(key "type", JStr (key "BertProcessing")); (key "sep", of_tok_id sep); (key "cls", of_tok_id cls); (key "trim_offsets", JBool true); (key "add_prefix_space", JBool true)])
  = Ok (CqRoberta sep cls true true).
Proof.
  intros V1 V2. split; [reflexivity|]. cbn [proc_of_json]. unfold proc_read. cbn [first_ok].
  erewrite roberta_reads; [reflexivity|exact V1|exact V2|constructor|constructor|reflexivity|reflexivity|reflexivity|reflexivity].
Qed.

(** A template changed by its setter has another number of added tokens once
    saved and loaded: [set_single] keeps the old number. *)
Definition with_single (t : template_config) (single : list piece) : template_config :=
  mkTemplateConfig single (tc_pair t) (tc_added_single t) (tc_added_pair t) (tc_special t).
Definition ex_cls : str * special_token := ([91%N], mkSpecialToken [91%N] [7%N] [[91%N]]).
Definition ex_template : template_config := mkTemplateConfig [PSpecial [91%N] 0; PSeq SeqA 0] [PSeq SeqA 0; PSpecial [91%N] 1; PSeq SeqB 1] 1 1 [ex_cls].
Theorem C71_setter_refuted :
  template_valid ex_template /\ (forall t s, template_of (with_single t s) = set_single (template_of t) s) /\
  exists c', proc_of_json (W := unit) (proc_to_json (fun m => m) (CqTemplate (with_single ex_template [PSeq SeqA 0]))) = Ok c' /\
    added_tokens (proc_of (CqTemplate (with_single ex_template [PSeq SeqA 0]))) false = 1 /\ added_tokens (proc_of c') false = 0.
Proof.
  split; [repeat split; repeat constructor; cbn; tauto|]. split; [reflexivity|]. eexists. split; [vm_compute; reflexivity|]. split; vm_compute; reflexivity.
Qed.

(** ** Examples *)
Definition ex_engines : engines := mkEngines (fun p => match p with PaRegex [] => None | _ => Some (fun _ => []) end) (fun s => if str_eqb s [] then None else Some (fun _ => None)) (fun s => [s]).
Definition ex_norm : norm_config := CnSequence [CnBert true false None true; CnSequence [CnReplace (PaRegex [97%N]) [98%N]; CnNFKC]; CnPrecompiled [65%N]; CnPrepend [95%N]].
Definition ex_pre : pre_config := CpSequence [CpSplit (PaString [32%N]) MergedWithNext true; CpMetaspace 95%N SFirst false; CpFixed 9; CpDelimiter 45%N; CpByteLevel true false true].
Definition ex_dec : dec_config := CdSequence [CdReplace (PaString [95%N]) [32%N]; CdByteFallback; CdFuse; CdStrip 32%N 1 0; CdCtc [112%N] [124%N] true].
Definition ex_proc : proc_config := CqSequence [CqByteLevel true true false; CqTemplate ex_template; CqRoberta ([115%N], 1%N) ([99%N], 2%N) true false].
Example C71_example : norm_valid ex_engines ex_norm /\ pre_valid ex_engines ex_pre /\ dec_valid ex_engines ex_dec /\ proc_valid ex_proc /\
  rearranged (W := unit) (proc_to_json (fun m => m) (CqBert ([115%N], 1%N) ([99%N], 2%N)))
    (JObj [(key "cls", JArr [JStr [99%N]; JInt 2]); (key "type", JStr (key "BertProcessing")); (key "sep", JArr [JStr [115%N]; JInt 1])]).
Proof.
  split; [cbn; intuition discriminate|]. split; [cbn; unfold fits; intuition (discriminate || lia)|]. split; [cbn; unfold fits; intuition (discriminate || lia)|]. split.
  - cbn [proc_valid all_of fold_right ex_proc]. split; [exact Logic.I|]. split; [exact (proj1 C71_setter_refuted)|]. cbn; unfold fits; intuition lia.
  - eapply re_object with (l' := [(key "type", JStr (key "BertProcessing")); (key "sep", JArr [JStr [115%N]; JInt 1]); (key "cls", JArr [JStr [99%N]; JInt 2])]).
    + repeat constructor.
    + apply Permutation_sym. eapply perm_trans; [apply perm_swap|]. constructor. apply perm_swap.
Qed.
