(** Model of the training of a whole tokenizer and of the lines of files.
    Source: /repo/tokenizers/src/tokenizer/mod.rs ([train], [train_from_files],
    [add_special_tokens]) and /repo/tokenizers/src/utils/iter.rs.  The progress
    bars are left out.  The file system is a pair of functions, and the threads
    that share out the sequences are a [reduction] (BpeTrainModel.v). *)
From Verif Require Import Base StrBytes Utf8 AMap EncodingModel NormModel PreTokModel AddedModel BpeModel BpeTrainModel WordPieceModel TrainersModel TokenizerModel.

(** ** Words *)
(** The closure given to [feed], mod.rs:1469-1480 and 1520-1532: the sequence is
    normalised and pre-tokenised as in [encode]; the texts of all splits are the
    words. *)
Definition training_words (t : tokenizer) (s : str) : res unit (list str) :=
  let! pt := extract_and_normalize (tz_space t) (tz_word t) (tz_added t) (tz_normalizer t) s in
  let! pt := do_pre_tokenize t pt in
  let! l := get_splits pt RefOriginal OByte in
  Ok (map (fun x => fst (fst x)) l).

(** ** Lines *)
(** [BufRead::read_line] up to the decoding of the bytes: the bytes up to the
    first line feed and with it, or all bytes; and what remains. *)
Fixpoint read_line (bytes : list N) : list N * list N :=
  match bytes with
  | [] => ([], [])
  | b :: rest =>
      if N.eqb b 10 then ([b], rest)
      else let (line, rest') := read_line rest in (b :: line, rest')
  end.

Definition ends_line (l : list N) : bool :=
  match rev l with b :: _ => N.eqb b 10 | [] => false end.

(** [Lines::next] called until it gives [None], utils/iter.rs:84-104.  [broken]:
    a read error comes after these bytes; it loses the line that is being read.
    Bytes that are not UTF-8 are an error of their line. *)
Fixpoint lines_fuel (fuel : nat) (broken : bool) (bytes : list N) : list (option str) :=
  match fuel with
  | O => []
  | S f =>
      let (line, rest) := read_line bytes in
      if broken && negb (ends_line line) then [None]
      else if is_nil line then []
      else from_utf8 line :: lines_fuel f broken rest
  end.
Definition lines_with_ending (broken : bool) (bytes : list N) : list (option str) :=
  lines_fuel (S (length bytes)) broken bytes.

(** [ResultShunt], utils/iter.rs:8-60: the items before the first error, and whether there is one. *)
Fixpoint shunt {A} (l : list (option A)) : list A * bool :=
  match l with
  | [] => ([], false)
  | None :: _ => ([], true)
  | Some a :: l' => let (xs, e) := shunt l' in (a :: xs, e)
  end.

(** What the file system answers when a file is opened: nothing (an error), or
    the bytes that can be read and whether an error comes after them. *)
Definition file_bytes := option (list N * bool).

(** The iterator of [train_from_files], mod.rs:1433-1445. *)
Definition file_items {F} (content : F -> file_bytes) (file : F) : list (option str) :=
  match content file with
  | Some (bytes, broken) => lines_with_ending broken bytes
  | None => [None]
  end.

(** ** Training *)
(** A tokenizer with the model it holds. *)
Record trainee (M : Type) := mkTrainee { te_tokenizer : tokenizer; te_model : M }.
Arguments mkTrainee {M} te_tokenizer te_model.
Arguments te_tokenizer {M} t.
Arguments te_model {M} t.

(** [trait Trainer], mod.rs:188-207, without [feed]: what [train] makes of the
    counted words and of the model, and the special tokens it returns. *)
Record model_trainer (M : Type) := mkModelTrainer {
  mt_learn : list (str * N) -> M -> res unit M; mt_special : list added_token }.
Arguments mkModelTrainer {M} mt_learn mt_special.
Arguments mt_learn {M} m.
Arguments mt_special {M} m.

(** What a call left behind and whether it failed: reading, or anything else. *)
Inductive train_error := EReading | EInside.
Inductive outcome (M : Type) := Trained (t : trainee M) | Failed (e : train_error) (t : trainee M) | Panicked.
Arguments Trained {M} t.
Arguments Failed {M} e t.
Arguments Panicked {M}.

Definition with_model (t : tokenizer) (answer : str -> res unit (list token)) : tokenizer :=
  mkTokenizer (tz_space t) (tz_word t) (tz_blank t) (tz_normalizer t) (tz_pre_tokenizer t) answer (tz_post t) (tz_added t) (tz_truncation t) (tz_padding t).
Definition with_added (t : tokenizer) (av : added_vocab) : tokenizer :=
  mkTokenizer (tz_space t) (tz_word t) (tz_blank t) (tz_normalizer t) (tz_pre_tokenizer t) (tz_model t) (tz_post t) av (tz_truncation t) (tz_padding t).

Section training.
  (** The vocabulary and the tokenisation of a model; whether the builder of the
      automata accepts some patterns; what the normalizer makes of the content
      of an added token. *)
  Context {M : Type} (vocab_of : M -> model_vocab) (answer : M -> str -> res unit (list token)).
  Context (accepts : list (str * N) -> bool) (norm : option (str -> option str)).

  (** mod.rs:1484-1485 and 1535-1536.  The model is replaced before the special
      tokens are added. *)
  Definition learn_and_add (tr : model_trainer M) (wc : list (str * N)) (x : trainee M) : outcome M :=
    match mt_learn tr wc (te_model x) with
    | Panic => Panicked
    | Err _ => Failed EInside x
    | Ok m' =>
        let t' := with_model (te_tokenizer x) (answer m') in
        let (av', n) := add_tokens accepts (vocab_of m') norm (mt_special tr) (tz_added t') in
        match n with
        | Some _ => Trained (mkTrainee (with_added t' av') m')
        | None => Failed EInside (mkTrainee (with_added t' av') m')
        end
    end.

  (** [train], mod.rs:1492-1540. *)
  Definition train (tr : model_trainer M) (sequences : reduction str) (x : trainee M) : outcome M :=
    match reduce (training_words (te_tokenizer x)) sequences with
    | Panic => Panicked
    | Err _ => Failed EInside x
    | Ok wc => learn_and_add tr wc x
    end.

  (** [train_from_files], mod.rs:1419-1489.  [size]: whether the file can be
      opened and its length read in the first pass; [content]: what opening it
      again gives; [share]: how the threads share out the lines. *)
  Definition train_from_files {F} (size : F -> bool) (content : F -> file_bytes) (share : list str -> reduction str)
             (tr : model_trainer M) (files : list F) (x : trainee M) : outcome M :=
    if forallb size files then
      let (sequences, failed) := shunt (flat_map (file_items content) files) in
      match train tr (share sequences) x with
      | Panicked => Panicked
      | Trained y => if failed then Failed EReading y else Trained y
      | Failed e y => Failed (if failed then EReading else e) y
      end
    else Failed EReading x.
End training.

(** ** Trainers *)
(** [Trainer for BpeTrainer], bpe/trainer.rs:633-639; the contents of [special] are
    the special tokens of [tr]. *)
Definition bpe_teacher (by_count : list (char * N) -> list (char * N)) (pop : list tmerge -> option (tmerge * list tmerge))
           (tr : trainer) (special : list added_token) : model_trainer bpe :=
  mkModelTrainer (fun wc m => let! (m', _) := do_train by_count pop tr wc m in Ok m') special.

(** [Trainer for WordLevelTrainer], wordlevel/trainer.rs:84-90. *)
Definition wl_teacher (tr : wl_trainer) (special : list added_token) : model_trainer wordlevel :=
  mkModelTrainer (fun wc m => Ok (fst (wl_train tr wc m))) special.

(** [token_to_id], [id_to_token], [get_vocab], [get_vocab_size] and [tokenize] of
    [impl Model for WordLevel], wordlevel/mod.rs:159-194, with its error boxed. *)
Definition wl_vocabulary (m : wordlevel) : model_vocab :=
  mkModel (wl_token_to_id m) (wl_id_to_token m) (l_vocab m) (length (l_vocab m)).
Definition wl_model (m : wordlevel) (s : str) : res unit (list token) :=
  match wl_tokenize m s with Ok ts => Ok ts | Err _ => Err tt | Panic => Panic end.
