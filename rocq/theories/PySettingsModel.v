(** Model of settings and added tokens given from Python: keyword arguments, the dicts that
    describe the settings, [AddedToken] objects.
    Source: /repo/bindings/python/src/tokenizer.rs. *)
From Verif Require Import Base StrBytes Utf8 EncodingModel TruncPadModel AddedModel TokenizerModel.
From Coq Require Import ZArith String Ascii.

(** Values of keyword arguments; [VOther] is anything else. *)
Inductive pyval := VNone | VBool (b : bool) | VInt (z : Z) | VStr (s : list N) | VOther.
(** [TypeError], [ValueError], [OverflowError], [UnicodeEncodeError]. *)
Inductive set_error := SType | SValue | SOverflow | SUnicode.
Definition text_of (s : string) : str := map N_of_ascii (list_ascii_of_string s).

(** A dict: keys in the order of insertion, all different. *)
Definition kwargs := list (str * pyval).
Definition has_key (k : str) (name : string) : bool := str_eqb k (text_of name).
Definition get_kw (kw : kwargs) (name : string) : option pyval := option_map snd (find (fun kv => has_key (fst kv) name) kw).

(** [extract] of PyO3 for [usize] and [u32] ([True] and [False] are ints), [String],
    [bool] and [Option]. *)
Definition get_int (limit : Z) (v : pyval) : res set_error Z :=
  match v with
  | VInt z => if (0 <=? z)%Z && (z <? limit)%Z then Ok z else Err SOverflow
  | VBool b => Ok (if b then 1%Z else 0%Z)
  | _ => Err SType
  end.
Definition get_usize (v : pyval) : res set_error nat := let! z := get_int 18446744073709551616 v in Ok (Z.to_nat z).
Definition get_u32 (v : pyval) : res set_error N := let! z := get_int 4294967296 v in Ok (Z.to_N z).
Definition get_str (v : pyval) : res set_error str :=
  match v with VStr s => if forallb is_scalar s then Ok s else Err SUnicode | _ => Err SType end.
Definition get_bool (v : pyval) : res set_error bool := match v with VBool b => Ok b | _ => Err SType end.
Definition get_option {A} (get : pyval -> res set_error A) (v : pyval) : res set_error (option A) :=
  match v with VNone => Ok None | _ => let! a := get v in Ok (Some a) end.

(** ** Truncation *)
Definition get_strategy (v : pyval) : res set_error trunc_strategy :=
  let! s := get_str v in
  if str_eqb s (text_of "longest_first") then Ok LongestFirst
  else if str_eqb s (text_of "only_first") then Ok OnlyFirst
  else if str_eqb s (text_of "only_second") then Ok OnlySecond else Err SValue.
Definition get_direction (v : pyval) : res set_error direction :=
  let! s := get_str v in
  if str_eqb s (text_of "left") then Ok DLeft else if str_eqb s (text_of "right") then Ok DRight else Err SValue.

(** One turn of the loop of [enable_truncation], tokenizer.rs:941-976; what it prints is
    left out. *)
Definition trunc_kwarg (p : trunc_params) (k : str) (v : pyval) : res set_error trunc_params :=
  if has_key k "stride" then let! n := get_usize v in Ok (mkTruncParams (tp_direction p) (tp_max_length p) (tp_strategy p) n)
  else if has_key k "strategy" then let! s := get_strategy v in Ok (mkTruncParams (tp_direction p) (tp_max_length p) s (tp_stride p))
  else if has_key k "direction" then let! d := get_direction v in Ok (mkTruncParams d (tp_max_length p) (tp_strategy p) (tp_stride p))
  else Ok p.
Fixpoint fold_kwargs {P} (f : P -> str -> pyval -> res set_error P) (p : P) (kw : kwargs) : res set_error P :=
  match kw with
  | [] => Ok p
  | (k, v) :: kw' => let! p' := f p k v in fold_kwargs f p' kw'
  end.
(** [enable_truncation], tokenizer.rs:926-989: the tokenizer afterwards and what the call
    does.  All arguments are given by name ([max_length] is taken out of them by PyO3, which
    the last case of [trunc_kwarg] stands for). *)
Definition enable_truncation (t : tokenizer) (kw : kwargs) : tokenizer * res set_error unit :=
  match get_kw kw "max_length" with
  | None => (t, Err SType)
  | Some v =>
      match (let! n := get_usize v in fold_kwargs trunc_kwarg (mkTruncParams DRight n LongestFirst 0) kw) with
      | Ok p =>
          match with_truncation t (Some p) with
          | Ok t' => (t', Ok tt)
          | Err _ => (t, Err SValue)
          | Panic => (t, Panic)
          end
      | Err e => (t, Err e)
      | Panic => (t, Panic)
      end
  end.
(** [AsRef<str>], truncation.rs:13-20, 60-68 and padding.rs:12-19. *)
Definition strategy_name (s : trunc_strategy) : string :=
  match s with LongestFirst => "longest_first" | OnlyFirst => "only_first" | OnlySecond => "only_second" end.
Definition direction_name (d : direction) : string := match d with DLeft => "left" | DRight => "right" end.
(** [get_truncation], tokenizer.rs:1005-1022. *)
Definition get_truncation (t : tokenizer) : option kwargs :=
  match tz_truncation t with
  | None => None
  | Some p => Some [(text_of "max_length", VInt (Z.of_nat (tp_max_length p))); (text_of "stride", VInt (Z.of_nat (tp_stride p)));
                    (text_of "strategy", VStr (text_of (strategy_name (tp_strategy p)))); (text_of "direction", VStr (text_of (direction_name (tp_direction p))))]
  end.

(** ** Padding *)
(** One turn of the loop of [enable_padding], tokenizer.rs:1055-1100. *)
Definition pad_kwarg (p : pad_params) (k : str) (v : pyval) : res set_error pad_params :=
  if has_key k "direction" then
    let! d := get_direction v in Ok (mkPadParams (pp_strategy p) d (pp_multiple p) (pp_id p) (pp_type_id p) (pp_token p))
  else if has_key k "pad_to_multiple_of" then
    let! n := get_option get_usize v in
    Ok (match n with Some m => mkPadParams (pp_strategy p) (pp_direction p) (Some m) (pp_id p) (pp_type_id p) (pp_token p) | None => p end)
  else if has_key k "pad_id" then
    let! i := get_u32 v in Ok (mkPadParams (pp_strategy p) (pp_direction p) (pp_multiple p) i (pp_type_id p) (pp_token p))
  else if has_key k "pad_type_id" then
    let! i := get_u32 v in Ok (mkPadParams (pp_strategy p) (pp_direction p) (pp_multiple p) (pp_id p) i (pp_token p))
  else if has_key k "pad_token" then
    let! s := get_str v in Ok (mkPadParams (pp_strategy p) (pp_direction p) (pp_multiple p) (pp_id p) (pp_type_id p) s)
  else if has_key k "max_length" || has_key k "length" then
    let! n := get_option get_usize v in
    Ok (mkPadParams (match n with Some l => Fixed l | None => BatchLongest end) (pp_direction p) (pp_multiple p) (pp_id p) (pp_type_id p) (pp_token p))
  else Ok p.
(** [PaddingParams::default()], padding.rs:31-42. *)
Definition default_padding : pad_params := mkPadParams BatchLongest DRight None 0 0 (text_of "[PAD]").
(** [enable_padding], tokenizer.rs:1045-1105. *)
Definition enable_padding (t : tokenizer) (kw : kwargs) : tokenizer * res set_error unit :=
  match fold_kwargs pad_kwarg default_padding kw with
  | Ok p => (with_padding t (Some p), Ok tt)
  | Err e => (t, Err e)
  | Panic => (t, Panic)
  end.
Definition of_size (n : option nat) : pyval := match n with Some n => VInt (Z.of_nat n) | None => VNone end.
(** [get_padding], tokenizer.rs:1119-1145. *)
Definition get_padding (t : tokenizer) : option kwargs :=
  match tz_padding t with
  | None => None
  | Some p => Some [(text_of "length", of_size (match pp_strategy p with Fixed n => Some n | BatchLongest => None end));
                    (text_of "pad_to_multiple_of", of_size (pp_multiple p)); (text_of "pad_id", VInt (Z.of_N (pp_id p)));
                    (text_of "pad_token", VStr (pp_token p)); (text_of "pad_type_id", VInt (Z.of_N (pp_type_id p)));
                    (text_of "direction", VStr (text_of (direction_name (pp_direction p))))]
  end.

(** ** Added tokens *)
(** [PyAddedToken], tokenizer.rs:65-72. *)
Record py_token := mkPyToken {
  pt_content : str; pt_special : bool; pt_single_word : option bool; pt_lstrip : option bool; pt_rstrip : option bool; pt_normalized : option bool }.
(** [PyAddedToken::from], tokenizer.rs:74-83. *)
Definition token_from (content : str) (special : bool) : py_token := mkPyToken content special None None None None.
Definition or_else (o : option bool) (b : bool) : bool := match o with Some x => x | None => b end.
(** [get_token], tokenizer.rs:85-102, with [AddedToken::from], added_vocabulary.rs:35-42. *)
Definition get_token (t : py_token) : added_token :=
  mkAdded (pt_content t) (or_else (pt_single_word t) false) (or_else (pt_lstrip t) false) (or_else (pt_rstrip t) false)
          (or_else (pt_normalized t) (negb (pt_special t))) (pt_special t).
(** [From<tk::AddedToken>], tokenizer.rs:119-130: what [get_added_tokens_decoder] gives. *)
Definition of_token (a : added_token) : py_token :=
  mkPyToken (at_content a) (at_special a) (Some (at_single_word a)) (Some (at_lstrip a)) (Some (at_rstrip a)) (Some (at_normalized a)).
(** The loop of [__new__], tokenizer.rs:143-156, and that of [__setstate__], 168-180, which
    also takes the content. *)
Definition token_kwarg (state : bool) (t : py_token) (k : str) (v : pyval) : res set_error py_token :=
  if state && has_key k "content" then let! s := get_str v in Ok (mkPyToken s (pt_special t) (pt_single_word t) (pt_lstrip t) (pt_rstrip t) (pt_normalized t))
  else if has_key k "single_word" then let! b := get_bool v in Ok (mkPyToken (pt_content t) (pt_special t) (Some b) (pt_lstrip t) (pt_rstrip t) (pt_normalized t))
  else if has_key k "lstrip" then let! b := get_bool v in Ok (mkPyToken (pt_content t) (pt_special t) (pt_single_word t) (Some b) (pt_rstrip t) (pt_normalized t))
  else if has_key k "rstrip" then let! b := get_bool v in Ok (mkPyToken (pt_content t) (pt_special t) (pt_single_word t) (pt_lstrip t) (Some b) (pt_normalized t))
  else if has_key k "normalized" then let! b := get_bool v in Ok (mkPyToken (pt_content t) (pt_special t) (pt_single_word t) (pt_lstrip t) (pt_rstrip t) (Some b))
  else if has_key k "special" then let! b := get_bool v in Ok (mkPyToken (pt_content t) b (pt_single_word t) (pt_lstrip t) (pt_rstrip t) (pt_normalized t))
  else Ok t.
(** [__new__], tokenizer.rs:135-159. *)
Definition new_token (content : option str) (kw : kwargs) : res set_error py_token :=
  fold_kwargs (token_kwarg false) (token_from (match content with Some s => s | None => [] end) false) kw.
(** [as_pydict], tokenizer.rs:104-116: [__getstate__]. *)
Definition token_state (t : py_token) : kwargs :=
  let a := get_token t in
  [(text_of "content", VStr (at_content a)); (text_of "single_word", VBool (at_single_word a)); (text_of "lstrip", VBool (at_lstrip a));
   (text_of "rstrip", VBool (at_rstrip a)); (text_of "normalized", VBool (at_normalized a)); (text_of "special", VBool (at_special a))].
(** What [pickle] and [copy] do: a new object without arguments and [__setstate__]. *)
Definition unpickle (state : kwargs) : res set_error py_token := fold_kwargs (token_kwarg true) (token_from [] false) state.
(** [set_special] and [set_content], tokenizer.rs:189-193, 226-229. *)
Definition set_special (t : py_token) (b : bool) : py_token := mkPyToken (pt_content t) b (pt_single_word t) (pt_lstrip t) (pt_rstrip t) (pt_normalized t).
(** [__richcmp__] and [__hash__], tokenizer.rs:253-266; the hash is a function of the content,
    added_vocabulary.rs:91-95. *)
Definition token_eq (t u : py_token) : bool := added_token_eqb (get_token t) (get_token u).
Definition token_hash {H} (hash : str -> H) (t : py_token) : H := hash (at_content (get_token t)).

(** Items of the lists given to [add_tokens]: text, an [AddedToken] (which one of those that
    exist), anything else. *)
Inductive item := ItStr (s : list N) | ItTok (i : nat) | ItOther.
Fixpoint replace_nth {A} (l : list A) (i : nat) (x : A) : list A :=
  match l, i with
  | [], _ => []
  | _ :: l', O => x :: l'
  | y :: l', S i' => y :: replace_nth l' i' x
  end.
(** The tokens made of a list, in order, up to the first error: [add_tokens],
    tokenizer.rs:1678-1691, and [add_special_tokens], 1714-1728, which makes the tokens special.
    An item is tried as text first, then as a token. *)
Fixpoint collect (special : bool) (heap : list py_token) (items : list item) : list py_token * res set_error (list added_token) :=
  match items with
  | [] => (heap, Ok [])
  | ItStr s :: items' =>
      if forallb is_scalar s then
        let '(heap', r) := collect special heap items' in (heap', let! l := r in Ok (get_token (token_from s special) :: l))
      else (heap, Err SType)
  | ItTok i :: items' =>
      match nth_error heap i with
      | None => (heap, Err SType)
      | Some t =>
          let t' := if special then set_special t true else t in
          let '(heap', r) := collect special (replace_nth heap i t') items' in (heap', let! l := r in Ok (get_token t' :: l))
      end
  | ItOther :: _ => (heap, Err SType)
  end.
(** The whole call: [add] is what the tokenizer does with tokens (AddedModel.add_tokens). *)
Definition py_add {T} (add : T -> list added_token -> T * option nat) (special : bool) (heap : list py_token) (t : T) (items : list item)
  : list py_token * T * res set_error (option nat) :=
  match collect special heap items with
  | (heap', Ok l) => let '(t', n) := add t l in (heap', t', Ok n)
  | (heap', Err e) => (heap', t, Err e)
  | (heap', Panic) => (heap', t, Panic)
  end.
