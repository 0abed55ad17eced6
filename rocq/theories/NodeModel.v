(** Model of the settings and helpers of the Node.js bindings.
    Source: /repo/bindings/node/src/tokenizer.rs, encoding.rs, utils.rs, normalizers.rs.
    Numbers ([u32]) are [nat]s and [N]s; a text is the list of its characters (napi turns a
    JavaScript string into a Rust [String]).  A [Panic] is a Rust panic inside the native
    function. *)
From Verif Require Import Base StrBytes Utf8 EncodingModel TruncPadModel NormModel NormalizersModel PreTokModel AddedModel TokenizerModel PySettingsModel.
From Coq Require Import ZArith String.

(** ** Truncation *)
(** [Either<String, JsTruncationDirection>] and [Either<String, PaddingDirection>]: a text or
    a value of the enumeration. *)
Inductive js_direction := JText (s : str) | JEnum (d : direction).
(** [TruncationOptions], tokenizer.rs:109-116. *)
Record js_trunc := mkJsTrunc { jt_max_length : option nat; jt_strategy : option trunc_strategy; jt_direction : option js_direction; jt_stride : option nat }.
(** [TryFrom<String>], encoding.rs:46-57 and tokenizer.rs:34-45; [Either::B], encoding.rs:37-44
    and tokenizer.rs:25-32. *)
Definition js_get_direction (d : js_direction) : res unit direction :=
  match d with
  | JText s => if str_eqb s (text_of "left") then Ok DLeft else if str_eqb s (text_of "right") then Ok DRight else Err tt
  | JEnum d => Ok d
  end.
Definition js_default {A} (o : option A) (a : A) : A := match o with Some x => x | None => a end.
(** [TryFrom<TruncationOptions>], tokenizer.rs:118-137; the default direction is [Right],
    truncation.rs:5-11, and the default strategy [LongestFirst], truncation.rs:52-58. *)
Definition js_trunc_params (o : js_trunc) : res unit trunc_params :=
  let! d := match jt_direction o with Some d => js_get_direction d | None => Ok DRight end in
  Ok (mkTruncParams d (js_default (jt_max_length o) 0) (js_default (jt_strategy o) LongestFirst) (js_default (jt_stride o) 0)).
(** [set_truncation], tokenizer.rs:388-408, with [TruncationParams::default()],
    truncation.rs:32-41: an error of [with_truncation] is unwrapped. *)
Definition js_set_truncation (t : tokenizer) (max_length : nat) (options : option js_trunc) : res unit tokenizer :=
  let! p := match options with Some o => js_trunc_params o | None => Ok (mkTruncParams DRight 512 LongestFirst 0) end in
  match with_truncation t (Some (mkTruncParams (tp_direction p) max_length (tp_strategy p) (tp_stride p))) with
  | Ok t' => Ok t'
  | _ => Panic
  end.
(** [disable_truncation], tokenizer.rs:410-418. *)
Definition js_disable_truncation (t : tokenizer) : res unit tokenizer := match with_truncation t None with Ok t' => Ok t' | _ => Panic end.

(** ** Padding *)
(** [PaddingOptions], tokenizer.rs:47-56. *)
Record js_pad := mkJsPad {
  jp_max_length : option nat; jp_direction : option js_direction; jp_multiple : option nat; jp_id : option N; jp_type_id : option N; jp_token : option str }.
Definition js_no_pad : js_pad := mkJsPad None None None None None None.
(** [TryFrom<PaddingOptions>], tokenizer.rs:58-83. *)
Definition js_pad_params (o : js_pad) : res unit pad_params :=
  let! d := match jp_direction o with Some d => js_get_direction d | None => Ok DRight end in
  Ok (mkPadParams (match jp_max_length o with Some n => Fixed n | None => BatchLongest end) d (jp_multiple o)
        (js_default (jp_id o) 0%N) (js_default (jp_type_id o) 0%N) (js_default (jp_token o) (text_of "[PAD]"))).
(** [set_padding], tokenizer.rs:420-429, and [disable_padding], 431-434. *)
Definition js_set_padding (t : tokenizer) (options : option js_pad) : res unit tokenizer :=
  let! p := match options with Some o => let! p := js_pad_params o in Ok (Some p) | None => Ok None end in
  Ok (with_padding t p).
Definition js_disable_padding (t : tokenizer) : tokenizer := with_padding t None.

(** ** Added tokens *)
(** [AddedTokenOptions], tokenizer.rs:139-145. *)
Record js_added := mkJsAdded { ja_single_word : option bool; ja_left_strip : option bool; ja_right_strip : option bool; ja_normalized : option bool }.
(** [AddedToken::from] of the bindings, tokenizer.rs:155-174, and of the library,
    added_vocabulary.rs:35-42. *)
Definition js_added_token (content : str) (special : bool) (options : option js_added) : added_token :=
  let t := mkAdded content false false false (negb special) special in
  match options with
  | None => t
  | Some o =>
      let t := match ja_single_word o with Some b => mkAdded (at_content t) b (at_lstrip t) (at_rstrip t) (at_normalized t) (at_special t) | None => t end in
      let t := match ja_left_strip o with Some b => mkAdded (at_content t) (at_single_word t) b (at_rstrip t) (at_normalized t) (at_special t) | None => t end in
      let t := match ja_right_strip o with Some b => mkAdded (at_content t) (at_single_word t) (at_lstrip t) b (at_normalized t) (at_special t) | None => t end in
      match ja_normalized o with Some b => mkAdded (at_content t) (at_single_word t) (at_lstrip t) (at_rstrip t) b (at_special t) | None => t end
  end.

(** ** Encoding texts *)
(** [EncodeOptions], tokenizer.rs:85-90. *)
Record js_encode_options := mkJsEncode { je_is_pretokenized : option bool; je_add_special_tokens : option bool }.
(** [From<EncodeOptions>], tokenizer.rs:99-107: [is_pretokenized] is not read. *)
Definition js_add_special (options : option js_encode_options) : bool :=
  js_default (je_add_special_tokens (js_default options (mkJsEncode None None))) true.
(** What the promises of [encode] and [encode_batch] resolve to, tokenizer.rs:289-326 and
    tasks/tokenizer.rs:18-32, 75-89, when nothing changes the tokenizer in between (for that
    see NodeTaskModel). *)
Definition js_encode (t : tokenizer) (sentence : str) (pair : option str) (options : option js_encode_options) : res tok_error encoding :=
  encode t OChar (match pair with Some p => Dual (Raw sentence) (Raw p) | None => Single (Raw sentence) end) (js_add_special options).
Definition js_encode_batch (t : tokenizer) (sentences : list str) (options : option js_encode_options) (schedule : list nat) : res tok_error (list encoding) :=
  encode_batch t OChar (map (fun s => Single (Raw s)) sentences) (js_add_special options) schedule.

(** ** Encodings *)
(** [JsEncoding], encoding.rs:7-11: [new Encoding()] makes one without content. *)
Definition js_encoding := option encoding.
(** [truncate], encoding.rs:208-235. *)
Definition js_truncate (e : js_encoding) (len : nat) (stride : option nat) (d : option js_direction) : res unit encoding :=
  let! d := match d with None => Ok DLeft | Some d => js_get_direction d end in
  match e with None => Panic | Some e => truncate e len (js_default stride 0) d end.
(** [pad], encoding.rs:195-206. *)
Definition js_pad_encoding (e : js_encoding) (len : nat) (options : option js_pad) : res unit encoding :=
  let! p := js_pad_params (js_default options js_no_pad) in
  match e with None => Panic | Some e => Ok (pad len (pp_id p) (pp_type_id p) (pp_token p) (pp_direction p) e) end.
(** [merge_encodings], utils.rs:34-51. *)
Definition js_merge_encodings (l : list js_encoding) (growing : option bool) : res unit encoding :=
  let! es := map_res (fun e : js_encoding => Base.of_option e) l in
  Ok (merge (js_default growing false) es).

(** ** Slices of texts *)
(** [slice], utils.rs:8-31.  The length of the text is less than 2^31 and the indexes are
    [i32]s.  [None] stands for the [usize] that a negative sum becomes, which is larger than
    every length. *)
Definition js_index (len : nat) (x : Z) : option nat :=
  if (0 <=? x)%Z then Some (Z.to_nat x)
  else let y := (Z.of_nat len + x)%Z in if (y <? 0)%Z then None else Some (Z.to_nat y).
Definition js_slice (s : str) (begin_index end_index : option Z) : res unit str :=
  let len := List.length s in
  let a := js_index len (js_default begin_index 0%Z) in
  let b := js_index len (js_default end_index (Z.of_nat len)) in
  match a, b with
  | Some a, Some b => let! r := get_range_of s a b in match r with Some x => Ok x | None => Err tt end
  | _, _ => Err tt
  end.

(** ** Normalizers *)
(** [BertNormalizerOptions] and [bert_normalizer], normalizers.rs:64-92. *)
Record js_bert := mkJsBert { jb_clean_text : option bool; jb_handle_chinese_chars : option bool; jb_strip_accents : option bool; jb_lowercase : option bool }.
Definition js_bert_normalizer (options : option js_bert) : normalizer :=
  let o := js_default options (mkJsBert None None None None) in
  NBert (js_default (jb_clean_text o) true) (js_default (jb_handle_chinese_chars o) true) (jb_strip_accents o) (js_default (jb_lowercase o) true).
(** [strip_normalizer], normalizers.rs:123-133. *)
Definition js_strip_normalizer (left right : option bool) : normalizer := NStrip (js_default left true) (js_default right true).

(** ** Histories of settings *)
Inductive js_call :=
| CSetTruncation (max_length : nat) (options : option js_trunc) | CDisableTruncation
| CSetPadding (options : option js_pad) | CDisablePadding.
Definition js_do (t : tokenizer) (c : js_call) : res unit tokenizer :=
  match c with
  | CSetTruncation n o => js_set_truncation t n o
  | CDisableTruncation => js_disable_truncation t
  | CSetPadding o => js_set_padding t o
  | CDisablePadding => Ok (js_disable_padding t)
  end.
(** A program that catches the errors that are thrown goes on after them. *)
Fixpoint js_run (t : tokenizer) (l : list js_call) : res unit tokenizer :=
  match l with
  | [] => Ok t
  | c :: l' => match js_do t c with Ok t' => js_run t' l' | Err _ => js_run t l' | Panic => Panic end
  end.
