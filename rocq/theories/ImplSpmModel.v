(** Model of the ready-made SentencePiece tokenizers of the Python package.
    Sources: /repo/bindings/python/py_src/tokenizers/implementations/sentencepiece_bpe.py,
    sentencepiece_unigram.py. *)
From Coq Require Import String.
From Verif Require Import Base StrBytes AMap BpeModel BpeTrainModel DecodersModel UnigramModel TrainersModel ModelFilesModel ComponentFilesModel AddedModel
  TokenizerModel TokenizerFilesModel TokenizerTrainModel TrainSaveModel PySettingsModel ImplModel ImplBertModel.

(** The arguments of [SentencePieceBPETokenizer] other than the vocabulary and the
    merges, sentencepiece_bpe.py:20-24.  The dropout is in the class of values of
    BpeModel; the replacement is any text. *)
Record spm_options := mkSpmOptions {
  so_unk : token_arg; so_rep : str; so_prefix : bool; so_dropout : dropout_value; so_fuse : option bool }.
(** The defaults, sentencepiece_bpe.py:20-24. *)
Definition spm_defaults : spm_options := mkSpmOptions (ArgText (key "<unk>")) [9601%N] true DNone (Some false).

Section tokenizer.
  Context {W : Type} (P : platform W).

  (** The scheme, the pre-tokenizer and the decoder, sentencepiece_bpe.py:35-37 and
      sentencepiece_unigram.py:34-36, 182-184.  A text is taken for a character if it
      has just one (pyo3; bindings/python/src/pre_tokenizers.rs:466-472). *)
  Definition meta_scheme (add_prefix_space : bool) : prepend_scheme := if add_prefix_space then SAlways else SNever.
  Definition meta_parts (rep : str) (add_prefix_space : bool) (g : config W) : res unit (config W) :=
    match rep with
    | [c] => Ok (with_decoder (with_pre_tokenizer g (Some (CpMetaspace c (meta_scheme add_prefix_space) true))) (Some (CdMetaspace c (meta_scheme add_prefix_space) true)))
    | _ => Err tt
    end.
  (** Assigning the normalizer (bindings/python/src/tokenizer.rs; the added tokens may
      refuse it, see PySettingsModel). *)
  Definition set_norm (n : norm_config) (g : config W) : res unit (config W) :=
    let '(g', ok) := with_normalizer P g (Some n) in if ok then Ok g' else Err tt.

  (** ** BPE *)
  (** The model, sentencepiece_bpe.py:26-29: the vocabulary and the merges are used if
      both are given.  The unknown token is given as it is, and [BPE(...)] takes only a
      text; it takes only a truth value for [fuse_unk]
      (bindings/python/src/models.rs:311-315, 320). *)
  Definition spm_bpe_model (vocab : option (list (str * N))) (merges : option (list (str * str))) (o : spm_options) : res unit bpe :=
    match so_unk o, so_fuse o with
    | ArgText unk, Some fuse =>
        let '(v, ms) := match vocab, merges with Some v, Some ms => (v, ms) | _, _ => ([], []) end in
        boxed (bpe_build v ms (so_dropout o) (Some unk) None None fuse false false)
    | _, _ => Err tt
    end.
  (** [__init__], sentencepiece_bpe.py:16-47. *)
  Definition spm_bpe_new (vocab : option (list (str * N))) (merges : option (list (str * str))) (o : spm_options) : res unit (config W) :=
    let! m := spm_bpe_model vocab merges o in
    let! g := tell_all P [str_of (so_unk o)] (tokenizer_new (MBpe m)) in
    let! g := set_norm CnNFKC g in
    meta_parts (so_rep o) (so_prefix o) g.

  Context (by_count : list (char * N) -> list (char * N)) (pop : list tmerge -> option (tmerge * list tmerge)).
  (** [train], sentencepiece_bpe.py:54-76, and [train_from_iterator], 78-106, with the
      other defaults of [BpeTrainer]. *)
  Definition spm_bpe_trainer (vocab_size : nat) (min_frequency : N) (limit : nat) (initial : list char) (special : list added_token) : trainer :=
    mkTrainer min_frequency vocab_size (map at_content special) (Some limit) initial None None None.
  Definition spm_bpe_train (vocab_size : nat) (min_frequency : N) (limit : nat) (initial : list char) (heap : list py_token) (items : list item)
      (sequences : reduction str) (g : config W) : res unit (config W) :=
    match collect true heap items with
    | (_, Ok special) => config_train P by_count pop (TBpe (spm_bpe_trainer vocab_size min_frequency limit initial special)) special sequences g
    | (_, Err _) => Err tt
    | (_, Panic) => Panic
    end.

  (** ** Unigram *)
  (** [Unigram(...)], bindings/python/src/models.rs:960-991; [Unigram::default],
      models/unigram/model.rs:90-95.  [alpha] and [nbest_size] are not set. *)
  Definition unigram_new (vocab : option (list (str * W))) (unk_id : option N) (fallback : bool) : res unit (unigram W) :=
    match vocab, unk_id with
    | Some v, _ => boxed (uni_from (pf_arith P) v unk_id fallback)
    | None, None => boxed (uni_from (pf_arith P) [(key "<unk>", a_zero (pf_arith P))] (Some 0%N) false)
    | None, Some _ => Err tt
    end.
  (** [normalizers.Replace(Regex(" {2,}"), " ")]. *)
  Definition two_spaces : pattern := PaRegex (key " {2,}").
  Definition squeeze : norm_config := CnReplace two_spaces [32%N].
  (** Making a normalizer with it fails if there is no such expression. *)
  Definition squeezable : res unit unit := match en_regex (pf_engines P) two_spaces with Some _ => Ok tt | None => Err tt end.

  (** [__init__], sentencepiece_unigram.py:17-44. *)
  Definition spm_uni_new (vocab : option (list (str * W))) (rep : str) (add_prefix_space : bool) : res unit (config W) :=
    let! m := unigram_new vocab None false in
    let! _ := squeezable in
    let! g := set_norm (CnSequence [CnNmt; CnNFKC; squeeze]) (tokenizer_new (MUnigram m)) in
    meta_parts rep add_prefix_space g.

  (** What is read of a SentencePiece file, sentencepiece_unigram.py:163-167; the chart as
      the text of ComponentFilesModel, if there is one.  Reading the file is external. *)
  Record spm_file := mkSpmFile {
    sf_pieces : list (str * W); sf_unk : N; sf_type : N; sf_fallback : bool; sf_chart : option str }.
  (** [from_spm], sentencepiece_unigram.py:148-192. *)
  Definition from_spm (f : spm_file) : res unit (config W) :=
    if negb (N.eqb (sf_type f) 1) then Err tt
    else
      let! m := unigram_new (Some (sf_pieces f)) (Some (sf_unk f)) (sf_fallback f) in
      let! first := match sf_chart f with
                    | None => Ok []
                    | Some c => match en_chart (pf_engines P) c with Some _ => Ok [CnPrecompiled c] | None => Err tt end
                    end in
      let! _ := squeezable in
      let! g := set_norm (CnSequence (first ++ [squeeze])) (tokenizer_new (MUnigram m)) in
      meta_parts [9601%N] true g.

  (** [train], sentencepiece_unigram.py:46-94, and [train_from_iterator], 96-146, with the
      other defaults of [UnigramTrainer] (bindings/python/src/trainers.rs:934-990; two
      sub-iterations); [learn] is [do_train] (UnigramTrainModel). *)
  Context (learn : uni_trainer -> list (str * N) -> res ut_error (unigram W * list str)).
  Definition spm_uni_trainer (vocab_size : nat) (initial : list char) (unk : option str) (special : list added_token) : uni_trainer :=
    mkUt vocab_size 2 (map at_content special) initial unk.
  Definition learn_with (tr : uni_trainer) (wc : list (str * N)) : res unit (unigram W) :=
    match learn tr wc with Ok (m, _) => Ok m | Err _ => Err tt | Panic => Panic end.
  Definition spm_uni_train (vocab_size : nat) (initial : list char) (unk : option str) (heap : list py_token) (items : option (list item))
      (sequences : reduction str) (g : config W) : res unit (config W) :=
    match collect true heap (match items with Some l => l | None => [] end) with
    | (_, Ok special) => config_train P by_count pop (TUnigram (learn_with (spm_uni_trainer vocab_size initial unk special))) special sequences g
    | (_, Err _) => Err tt
    | (_, Panic) => Panic
    end.
End tokenizer.
Arguments mkSpmFile {W}.
