(** Model of [TokenizerImpl]: encoding of single inputs, pairs and batches.
    Source: /repo/tokenizers/src/tokenizer/mod.rs.
    The normalizer, the pre-tokenizer and the model are functions (they are
    modelled on their own); the post-processor is one of the built-in ones. *)
From Verif Require Import Base StrBytes EncodingModel TruncPadModel NormModel PreTokModel AddedModel ByteLevelModel ProcessorsModel.

(** The boxed errors of the functions below. *)
Inductive tok_error := ETrunc (e : trunc_error) | EOther.

Definition other {A} (r : res unit A) : res tok_error A :=
  match r with Ok a => Ok a | Err _ => Err EOther | Panic => Panic end.
Definition trunc {A} (r : res trunc_error A) : res tok_error A :=
  match r with Ok a => Ok a | Err e => Err (ETrunc e) | Panic => Panic end.

(** [TokenizerImpl], mod.rs:544-558, without the decoder.  [tz_normalizer] is what
    the normalizer makes of a string ([extract_and_normalize] ignores its error);
    [tz_model] is [Model::tokenize]; [tz_space] and [tz_word] are the character
    classes of the regex crate and [tz_blank] is [char::is_whitespace]. *)
Record tokenizer := mkTokenizer {
  tz_space : char -> bool; tz_word : char -> bool; tz_blank : char -> bool;
  tz_normalizer : nstring -> nstring;
  tz_pre_tokenizer : option (pretok -> res unit pretok);
  tz_model : str -> res unit (list token);
  tz_post : option processor;
  tz_added : added_vocab;
  tz_truncation : option trunc_params;
  tz_padding : option pad_params }.

Definition set_truncation (t : tokenizer) (p : option trunc_params) : tokenizer :=
  mkTokenizer (tz_space t) (tz_word t) (tz_blank t) (tz_normalizer t) (tz_pre_tokenizer t) (tz_model t) (tz_post t) (tz_added t) p (tz_padding t).
(** [with_padding], mod.rs:687-690. *)
Definition with_padding (t : tokenizer) (p : option pad_params) : tokenizer :=
  mkTokenizer (tz_space t) (tz_word t) (tz_blank t) (tz_normalizer t) (tz_pre_tokenizer t) (tz_model t) (tz_post t) (tz_added t) (tz_truncation t) p.

(** [get_n_added_tokens], mod.rs:1319-1325. *)
Definition n_added (t : tokenizer) (is_pair : bool) : nat :=
  match tz_post t with Some p => added_tokens p is_pair | None => 0 end.

(** [with_truncation], mod.rs:661-674; the subtraction may underflow. *)
Definition with_truncation (t : tokenizer) (p : option trunc_params) : res unit tokenizer :=
  match p with
  | None => Ok (set_truncation t None)
  | Some q =>
      let n := n_added t false in
      if tp_max_length q <? n then Panic
      else if tp_max_length q - n <? tp_stride q then Err tt
      else Ok (set_truncation t (Some q))
  end.

(** The limit of [do_tokenize], mod.rs:1186-1196. *)
Definition token_limit (t : tokenizer) (type_id : N) : option (nat * direction) :=
  match tz_truncation t with
  | Some p =>
      if (match tp_strategy p with OnlySecond => false | _ => true end) || negb (N.eqb type_id 0)
      then Some (tp_max_length p, tp_direction p) else None
  | None => None
  end.

(** [Model::tokenize_in_pretokenized], mod.rs:104-117 (no model overrides it). *)
Definition tokenize_in (t : tokenizer) (limit : option (nat * direction)) (pt : pretok) : res unit pretok :=
  let f := fun ns => tz_model t (n_normalized ns) in
  match limit with
  | Some (mx, d) => pt_tokenize_with_limit f mx d pt
  | None => pt_tokenize f pt
  end.

(** [do_tokenize], mod.rs:1178-1200. *)
Definition do_tokenize (t : tokenizer) (pt : pretok) (type_id : N) (word_idx : option N) (ot : offset_type)
  : res unit encoding :=
  let! pt := tokenize_in t (token_limit t type_id) pt in
  into_encoding pt word_idx type_id ot.

(** [do_pre_tokenize], mod.rs:1247-1257. *)
Definition do_pre_tokenize (t : tokenizer) (pt : pretok) : res unit pretok :=
  match tz_pre_tokenizer t with Some f => f pt | None => Ok pt end.

(** The closure of [encode_single_sequence], mod.rs:768-785. *)
Definition encode_part (t : tokenizer) (type_id : N) (ot : offset_type) (word_idx : option N) (s : str)
  : res unit encoding :=
  let! pt := extract_and_normalize (tz_space t) (tz_word t) (tz_added t) (tz_normalizer t) s in
  let! pt := do_pre_tokenize t pt in
  do_tokenize t pt type_id word_idx ot.

(** [InputSequence], mod.rs:225-230: raw text or words. *)
Inductive input_sequence := Raw (s : str) | PreTokenized (words : list str).
(** [EncodeInput], mod.rs:287-290. *)
Inductive encode_input := Single (a : input_sequence) | Dual (a b : input_sequence).

(** [encode_single_sequence], mod.rs:762-805; collecting encodings merges them
    (encoding.rs:535-539). *)
Definition encode_single (t : tokenizer) (sq : input_sequence) (type_id : N) (ot : offset_type) : res unit encoding :=
  match sq with
  | Raw s => encode_part t type_id ot None s
  | PreTokenized ws =>
      let! es := map_res (fun iw => encode_part t type_id ot (Some (N.of_nat (fst iw))) (snd iw))
                         (combine (seq 0 (length ws)) ws) in
      Ok (merge false es)
  end.

(** Step 1 of [post_process], mod.rs:1271-1288. *)
Definition truncate_step (t : tokenizer) (e : encoding) (pair : option encoding) (add : bool)
  : res tok_error (encoding * option encoding) :=
  match tz_truncation t with
  | None => Ok (e, pair)
  | Some p =>
      let n := n_added t (match pair with Some _ => true | None => false end) in
      if add && (0 <? n) then
        if tp_max_length p <? n then Panic
        else trunc (truncate_encodings e pair
                      (mkTruncParams (tp_direction p) (tp_max_length p - n) (tp_strategy p) (tp_stride p)))
      else trunc (truncate_encodings e pair p)
  end.

(** Step 2 of [post_process], mod.rs:1290-1305. *)
Definition process_step (t : tokenizer) (e : encoding) (pair : option encoding) (add : bool) : res tok_error encoding :=
  match tz_post t with
  | Some p => other (process (tz_blank t) p e pair add)
  | None =>
      match default_process (match pair with Some o => [e; o] | None => [e] end) with
      | [x] => Ok x
      | _ => Panic
      end
  end.

(** Step 3 of [post_process], mod.rs:1307-1314. *)
Definition pad_step (t : tokenizer) (e : encoding) : res tok_error encoding :=
  match tz_padding t with
  | Some p => match pad_encodings [e] p with [x] => Ok x | _ => Panic end
  | None => Ok e
  end.

(** [post_process], mod.rs:1265-1317. *)
Definition post_process (t : tokenizer) (e : encoding) (pair : option encoding) (add : bool) : res tok_error encoding :=
  let! ep := truncate_step t e pair add in
  let! x := process_step t (fst ep) (snd ep) add in
  pad_step t x.

(** [encode] (bytes), [encode_char_offsets] and [encode_fast], mod.rs:829-931. *)
Definition encode (t : tokenizer) (ot : offset_type) (input : encode_input) (add : bool) : res tok_error encoding :=
  match input with
  | Single a =>
      let! e := other (encode_single t a 0 ot) in
      post_process t e None add
  | Dual a b =>
      let! e := other (encode_single t a 0 ot) in
      let! o := other (encode_single t b 1 ot) in
      post_process t e (Some o) add
  end.

(** ** Batches *)
(** [into_maybe_par_iter().map(f).collect::<Result<Vec<_>>>()], mod.rs:1345-1348:
    the items are run in the order given by a schedule (a list of positions).
    Each result goes to the slot of its input; the first failure seen is the
    result, and items not started then may be left out.  A panic of any item is
    the panic of the whole. *)
Fixpoint run_schedule {I E A} (f : I -> res E A) (inputs : list I) (schedule : list nat) (slots : list (nat * A)) (failed : option E)
  : res E (list (nat * A)) :=
  match schedule with
  | [] => match failed with Some e => Err e | None => Ok slots end
  | i :: rest =>
      match nth_error inputs i with
      | None => Panic
      | Some x =>
          match f x with
          | Ok a => run_schedule f inputs rest ((i, a) :: slots) failed
          | Err e => run_schedule f inputs rest slots (match failed with Some e0 => Some e0 | None => Some e end)
          | Panic => Panic
          end
      end
  end.
Fixpoint slot {A} (i : nat) (slots : list (nat * A)) : option A :=
  match slots with
  | [] => None
  | (j, a) :: rest => if i =? j then Some a else slot i rest
  end.
Definition par_collect {I E A} (f : I -> res E A) (inputs : list I) (schedule : list nat) : res E (list A) :=
  let! slots := run_schedule f inputs schedule [] None in
  map_res (fun i => of_option (slot i slots)) (seq 0 (length inputs)).

(** [encode_batch] and its two variants, mod.rs:1337-1402. *)
Definition encode_batch (t : tokenizer) (ot : offset_type) (inputs : list encode_input) (add : bool) (schedule : list nat)
  : res tok_error (list encoding) :=
  let! es := par_collect (fun i => encode t ot i add) inputs schedule in
  Ok (match tz_padding t with Some p => pad_encodings es p | None => es end).
