(** Model of the training of a tokenizer that is described by a configuration.
    Sources: /repo/tokenizers/src/models/mod.rs, tokenizer/mod.rs. *)
From Verif Require Import Base StrBytes EncodingModel BpeWordModel BpeModel BpeTrainModel WordPieceModel UnigramModel TrainersModel AddedModel TokenizerModel ModelFilesModel TokenizerFilesModel TokenizerTrainModel.

Section training.
  Context {W : Type} (P : platform W).
  (** Sorts and queue of BPE training, see BpeTrainModel. *)
  Context (by_count : list (char * N) -> list (char * N)) (pop : list tmerge -> option (tmerge * list tmerge)).

  (** [TrainerWrapper], models/mod.rs:226-232.  What Unigram training makes of the
      counted words is an argument (see TrainersModel and UnigramTrainModel): it
      replaces the model. *)
  Inductive any_trainer :=
  | TBpe (tr : trainer)
  | TWordPiece (tr : trainer)
  | TWordLevel (tr : wl_trainer)
  | TUnigram (learn : list (str * N) -> res unit (unigram W)).

  (** [train] of [TrainerWrapper], models/mod.rs:246-265; the contents of [special]
      are the special tokens of the trainer. *)
  Definition any_teacher (T : any_trainer) (special : list added_token) : model_trainer (@model W) :=
    mkModelTrainer (fun wc m =>
      match T, m with
      | TBpe tr, MBpe b => let! (b', _) := do_train by_count pop tr wc b in Ok (MBpe b')
      | TWordPiece tr, MWordPiece w => let! (w', _) := wp_train by_count pop tr wc w in Ok (MWordPiece w')
      | TWordLevel tr, MWordLevel l => Ok (MWordLevel (fst (wl_train tr wc l)))
      | TUnigram learn, MUnigram _ => let! u := learn wc in Ok (MUnigram u)
      | _, _ => Err tt
      end) special.

  (** [train], tokenizer/mod.rs:1492-1540, of a tokenizer with these components: the
      model and the added tokens are replaced. *)
  Definition trained_config (g : config W) (y : trainee (@model W)) : config W :=
    mkConfig (g_normalizer g) (g_pre g) (te_model y) (g_post g) (g_decoder g) (tz_added (te_tokenizer y)) (g_truncation g) (g_padding g).
  Definition config_train (T : any_trainer) (special : list added_token) (sequences : reduction str) (g : config W) : res unit (config W) :=
    match train model_vocabulary (model_tokenize P) (pf_build P) (norm_fun P g) (any_teacher T special) sequences (mkTrainee (runtime P g) (g_model g)) with
    | Trained y => Ok (trained_config g y)
    | Failed _ _ => Err tt
    | Panicked => Panic
    end.
End training.
Arguments any_trainer W : clear implicits.
Arguments TBpe {W} tr.
Arguments TWordPiece {W} tr.
Arguments TWordLevel {W} tr.
Arguments TUnigram {W} learn.
