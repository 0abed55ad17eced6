(** Model of the ready-made BERT tokenizer of the Python package.
    Source: /repo/bindings/python/py_src/tokenizers/implementations/bert_wordpiece.py. *)
From Coq Require Import String.
From Verif Require Import Base StrBytes AMap BpeModel BpeTrainModel WordPieceModel TrainersModel ModelFilesModel ComponentFilesModel AddedModel
  TokenizerModel TokenizerFilesModel TokenizerTrainModel TrainSaveModel PySettingsModel.

(** A token in the arguments: a text or an [AddedToken], bert_wordpiece.py:18-22. *)
Inductive token_arg := ArgText (s : str) | ArgToken (t : added_token).
(** [str(...)]: of an [AddedToken] its content, bindings/python/src/tokenizer.rs:231-233. *)
Definition str_of (a : token_arg) : str := match a with ArgText s => s | ArgToken t => at_content t end.

(** The arguments of [__init__] other than the vocabulary, bert_wordpiece.py:17-28. *)
Record bert_options := mkBertOptions {
  wo_unk : token_arg; wo_sep : token_arg; wo_cls : token_arg; wo_pad : token_arg; wo_mask : token_arg;
  wo_clean : bool; wo_chinese : bool; wo_accents : option bool; wo_lowercase : bool; wo_prefix : str }.
(** The defaults, bert_wordpiece.py:18-27. *)
Definition bert_defaults : bert_options :=
  mkBertOptions (ArgText (key "[UNK]")) (ArgText (key "[SEP]")) (ArgText (key "[CLS]")) (ArgText (key "[PAD]")) (ArgText (key "[MASK]"))
    true true None true (key "##").

(** A text given to [add_special_tokens], bindings/python/src/tokenizer.rs:1718-1719. *)
Definition special_text (s : str) : added_token := mkAdded s false false false false true.

Section tokenizer.
  Context {W : Type} (P : platform W).

  (** [Tokenizer(WordPiece(vocab, unk_token=...))] and [Tokenizer(WordPiece(unk_token=...))],
      bert_wordpiece.py:29-32, with the defaults of the builder, wordpiece/mod.rs:42-54
      (no vocabulary, 100 characters, "##"): [wordpieces_prefix] is not given to it. *)
  Definition bert_model (vocab : option (list (str * N))) (o : bert_options) : wordpiece :=
    mkWP (match vocab with Some v => v | None => [] end) (str_of (wo_unk o)) (key "##") 100.

  (** [if tokenizer.token_to_id(...) is not None: tokenizer.add_special_tokens([...])],
      bert_wordpiece.py:34-44; an error of the call is raised. *)
  Definition tell_special (c : str) (g : config W) : res unit (config W) :=
    match tk_token_to_id (model_vocabulary (g_model g)) (g_added g) c with
    | None => Ok g
    | Some _ => match tokenizer_add P g [special_text c] with (g', Some _) => Ok g' | (_, None) => Err tt end
    end.
  Fixpoint tell_all (cs : list str) (g : config W) : res unit (config W) :=
    match cs with [] => Ok g | c :: cs => let! g := tell_special c g in tell_all cs g end.
  Definition bert_tokens (o : bert_options) : list str := map str_of [wo_unk o; wo_sep o; wo_cls o; wo_pad o; wo_mask o].

  (** The post-processor, bert_wordpiece.py:54-62: only with a vocabulary. *)
  Definition bert_post (vocab : option (list (str * N))) (o : bert_options) (g : config W) : res unit (config W) :=
    match vocab with
    | None => Ok g
    | Some _ =>
        match tk_token_to_id (model_vocabulary (g_model g)) (g_added g) (str_of (wo_sep o)) with
        | None => Err tt
        | Some sep =>
            match tk_token_to_id (model_vocabulary (g_model g)) (g_added g) (str_of (wo_cls o)) with
            | None => Err tt
            | Some cls => Ok (with_post_processor g (Some (CqBert (str_of (wo_sep o), sep) (str_of (wo_cls o), cls))))
            end
        end
    end.

  (** [__init__], bert_wordpiece.py:15-79; the decoder cleans up by default
      (bindings/python/src/decoders.rs:236-276). *)
  Definition bert_new (vocab : option (list (str * N))) (o : bert_options) : res unit (config W) :=
    let! g := tell_all (bert_tokens o) (tokenizer_new (MWordPiece (bert_model vocab o))) in
    let '(g, ok) := with_normalizer P g (Some (CnBert (wo_clean o) (wo_chinese o) (wo_accents o) (wo_lowercase o))) in
    if ok then
      let! g := bert_post vocab o (with_pre_tokenizer g (Some CpBert)) in
      Ok (with_decoder g (Some (CdWordPiece (wo_prefix o) true)))
    else Err tt.

  (** ** Training *)
  Context (by_count : list (char * N) -> list (char * N)) (pop : list tmerge -> option (tmerge * list tmerge)).

  (** The trainer of [train] and [train_from_iterator], bert_wordpiece.py:105-113 and
      138-146. *)
  Definition bert_trainer (vocab_size : nat) (min_frequency : N) (limit : nat) (initial : list char) (prefix : str) (special : list added_token) : trainer :=
    mkTrainer min_frequency vocab_size (map at_content special) (Some limit) initial (Some prefix) None None.
  (** [train], bert_wordpiece.py:86-116, and [train_from_iterator], 118-151. *)
  Definition bert_train (vocab_size : nat) (min_frequency : N) (limit : nat) (initial : list char) (prefix : str) (heap : list py_token) (items : list item)
      (sequences : reduction str) (g : config W) : res unit (config W) :=
    match collect true heap items with
    | (_, Ok special) => config_train P by_count pop (TWordPiece (bert_trainer vocab_size min_frequency limit initial prefix special)) special sequences g
    | (_, Err _) => Err tt
    | (_, Panic) => Panic
    end.
End tokenizer.
