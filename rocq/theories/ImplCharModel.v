(** Model of the ready-made BPE tokenizer with an end of word suffix of the Python
    package.
    Source: /repo/bindings/python/py_src/tokenizers/implementations/char_level_bpe.py. *)
From Coq Require Import String.
From Verif Require Import Base StrBytes AMap BpeModel BpeTrainModel TrainersModel ModelFilesModel ComponentFilesModel AddedModel
  TokenizerModel TokenizerFilesModel TokenizerTrainModel TrainSaveModel PySettingsModel ImplModel ImplBertModel.

(** The arguments of [__init__] other than the vocabulary and the merges,
    char_level_bpe.py:25-36.  The dropout is in the class of values of BpeModel. *)
Record char_options := mkCharOptions {
  co_unk : token_arg; co_suffix : str; co_dropout : dropout_value; co_lowercase : bool; co_unicode : option str;
  co_bert : bool; co_spaces_only : bool }.
(** The defaults, char_level_bpe.py:29-35. *)
Definition char_defaults : char_options := mkCharOptions (ArgText (key "<unk>")) (key "</w>") DNone false None true false.

Section tokenizer.
  Context {W : Type} (P : platform W).

  (** The model, char_level_bpe.py:37-48: the vocabulary and the merges are used if both
      are given (in memory; file names go through the same builder), and the other
      options of [BPE(...)] are not set (bindings/python/src/models.rs:297-345). *)
  Definition char_model (vocab : option (list (str * N))) (merges : option (list (str * str))) (o : char_options) : res unit bpe :=
    let '(v, ms) := match vocab, merges with Some v, Some ms => (v, ms) | _, _ => ([], []) end in
    boxed (bpe_build v ms (co_dropout o) (Some (str_of (co_unk o))) None (Some (co_suffix o)) false false false).

  (** The list of normalizers, char_level_bpe.py:53-63; an unknown name is an error, an
      empty one is none.  [BertNormalizer(lowercase=False)] has the defaults of
      bindings/python/src/normalizers.rs:303-320. *)
  Definition char_normalizers (o : char_options) : res unit (list norm_config) :=
    let rest := (if co_bert o then [CnBert true true None false] else []) ++ (if co_lowercase o then [CnLowercase] else []) in
    match co_unicode o with
    | None | Some [] => Ok rest
    | Some name => match unicode_normalizer name with Some n => Ok (n :: rest) | None => Err tt end
    end.

  (** [__init__], char_level_bpe.py:25-90; the normalizer is set as in
      byte_level_bpe.py (65-70 here, 52-57 there). *)
  Definition char_new (vocab : option (list (str * N))) (merges : option (list (str * str))) (o : char_options) : res unit (config W) :=
    let! m := char_model vocab merges o in
    let! g := tell_all P [str_of (co_unk o)] (tokenizer_new (MBpe m)) in
    let! ns := char_normalizers o in
    let! g := byte_level_normalizer P ns g in
    let g := with_pre_tokenizer g (Some (if co_spaces_only o then CpWhitespaceSplit else CpBert)) in
    Ok (with_decoder g (Some (CdBpe (co_suffix o)))).

  (** ** Training *)
  Context (by_count : list (char * N) -> list (char * N)) (pop : list tmerge -> option (tmerge * list tmerge)).

  (** The trainer of [train] and [train_from_iterator], char_level_bpe.py:111-119 and
      140-148, with the other defaults of [BpeTrainer]. *)
  Definition char_trainer (vocab_size : nat) (min_frequency : N) (limit : nat) (initial : list char) (suffix : str) (special : list added_token) : trainer :=
    mkTrainer min_frequency vocab_size (map at_content special) (Some limit) initial None (Some suffix) None.
  (** [train], char_level_bpe.py:97-122, and [train_from_iterator], 124-153.  The suffix
      has to be a text (bindings/python/src/trainers.rs:417). *)
  Definition char_train (vocab_size : nat) (min_frequency : N) (limit : nat) (initial : list char) (suffix : option str) (heap : list py_token) (items : list item)
      (sequences : reduction str) (g : config W) : res unit (config W) :=
    match collect true heap items, suffix with
    | (_, Ok special), Some suffix => config_train P by_count pop (TBpe (char_trainer vocab_size min_frequency limit initial suffix special)) special sequences g
    | (_, Panic), _ => Panic
    | _, _ => Err tt
    end.
End tokenizer.
