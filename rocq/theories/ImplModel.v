(** Model of the ready-made byte-level tokenizer of the Python package.
    Source: /repo/bindings/python/py_src/tokenizers/implementations/byte_level_bpe.py. *)
From Coq Require Import String.
From Verif Require Import Base StrBytes AMap BpeModel BpeTrainModel TrainersModel ByteLevelModel ModelFilesModel ComponentFilesModel AddedModel
  TokenizerModel TokenizerFilesModel TokenizerTrainModel TrainSaveModel PySettingsModel.

(** The arguments of [__init__] other than the vocabulary and the merges,
    byte_level_bpe.py:18-29.  The dropout is in the class of values of BpeModel. *)
Record bl_options := mkBlOptions {
  bo_add_prefix_space : bool; bo_lowercase : bool; bo_dropout : dropout_value; bo_unicode : option str;
  bo_prefix : option str; bo_suffix : option str; bo_trim_offsets : bool }.
(** The defaults, byte_level_bpe.py:22-28. *)
Definition bl_defaults : bl_options := mkBlOptions false false DNone None None None false.

(** [x or ""], byte_level_bpe.py:36-37. *)
Definition or_empty (o : option str) : str := match o with Some s => s | None => [] end.

(** [unicode_normalizer_from_str], normalizers/__init__.py:20-29. *)
Definition unicode_normalizer (name : str) : option norm_config :=
  if str_eqb name (key "nfc") then Some CnNFC
  else if str_eqb name (key "nfd") then Some CnNFD
  else if str_eqb name (key "nfkc") then Some CnNFKC
  else if str_eqb name (key "nfkd") then Some CnNFKD
  else None.

Section tokenizer.
  Context {W : Type} (P : platform W).

  (** The model, byte_level_bpe.py:30-41: with a vocabulary and merges (in memory;
      file names go through the same builder) [BPE(...)] with them, where the options
      that are not given are not set (bindings/python/src/models.rs:297-345); otherwise
      [BPE()]. *)
  Definition byte_level_model (vocab : option (list (str * N))) (merges : option (list (str * str))) (o : bl_options) : res unit bpe :=
    match vocab, merges with
    | Some v, Some ms => boxed (bpe_build v ms (bo_dropout o) None (Some (or_empty (bo_prefix o))) (Some (or_empty (bo_suffix o))) false false false)
    | _, _ => Ok bpe_default
    end.

  (** The list of normalizers, byte_level_bpe.py:43-50; an unknown name is an error,
      an empty one is none. *)
  Definition byte_level_normalizers (o : bl_options) : res unit (list norm_config) :=
    let lower := if bo_lowercase o then [CnLowercase] else [] in
    match bo_unicode o with
    | None | Some [] => Ok lower
    | Some name => match unicode_normalizer name with Some n => Ok (n :: lower) | None => Err tt end
    end.

  (** Setting the normalizer, byte_level_bpe.py:52-57. *)
  Definition byte_level_normalizer (ns : list norm_config) (g : config W) : res unit (config W) :=
    let set n := let '(g', ok) := with_normalizer P g (Some n) in if ok then Ok g' else Err tt in
    match ns with
    | [] => Ok g
    | [n] => set n
    | _ => set (CnSequence ns)
    end.

  (** [__init__], byte_level_bpe.py:18-75.  The defaults of the components:
      pre_tokenizers.rs:300-317, decoders.rs:186-191, processors.rs:516-546 and
      [ByteLevel::default], byte_level.rs:74-82 (all true). *)
  Definition byte_level_new (vocab : option (list (str * N))) (merges : option (list (str * str))) (o : bl_options) : res unit (config W) :=
    let! m := byte_level_model vocab merges o in
    let! ns := byte_level_normalizers o in
    let! g := byte_level_normalizer ns (tokenizer_new (MBpe m)) in
    let g := with_pre_tokenizer g (Some (CpByteLevel (bo_add_prefix_space o) true true)) in
    let g := with_decoder g (Some (CdByteLevel true true true)) in
    Ok (with_post_processor g (Some (CqByteLevel true (bo_trim_offsets o) true))).

  (** ** Training *)
  Context (by_count : list (char * N) -> list (char * N)) (pop : list tmerge -> option (tmerge * list tmerge)).

  (** [ByteLevel.alphabet()], byte_level.rs:93-95 (a hash set: its order is not kept). *)
  Definition byte_alphabet : list char := map snd bytes_char_table.
  (** The trainer of [train] and [train_from_iterator], byte_level_bpe.py:92-98 and
      114-120, with the defaults of [BpeTrainer]. *)
  Definition byte_level_trainer (vocab_size : nat) (min_frequency : N) (special : list added_token) : trainer :=
    mkTrainer min_frequency vocab_size (map at_content special) None byte_alphabet None None None.
  (** [train], byte_level_bpe.py:82-101, and [train_from_iterator], 103-125: the special
      tokens are texts or [AddedToken]s (trainers.rs:382-402, like [add_special_tokens],
      see PySettingsModel), and [sequences] are the texts with the way their counts are
      put together. *)
  Definition byte_level_train (vocab_size : nat) (min_frequency : N) (heap : list py_token) (items : list item) (sequences : reduction str)
      (g : config W) : res unit (config W) :=
    match collect true heap items with
    | (_, Ok special) => config_train P by_count pop (TBpe (byte_level_trainer vocab_size min_frequency special)) special sequences g
    | (_, Err _) => Err tt
    | (_, Panic) => Panic
    end.
End tokenizer.
