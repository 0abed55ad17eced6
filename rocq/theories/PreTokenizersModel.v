(** Model of the pre-tokenizers.
    Sources: /repo/tokenizers/src/pre_tokenizers/{mod,bert,delimiter,digits,fixed_length,punctuation,
    sequence,split,whitespace}.rs, unicode_scripts/pre_tokenizer.rs; byte_level.rs and metaspace.rs
    are in DecodersModel.v. *)
From Coq Require Import ZArith.
From Verif Require Import Base StrBytes PatternModel EncodingModel NormModel DecodersModel PreTokModel.

(** The tables and regular expressions of other crates, and the script table
    unicode_scripts/scripts.rs: arguments.
    [is_ws]: [char::is_whitespace]; [is_numeric]: [char::is_numeric]; [is_punct]:
    [UnicodeCategories::is_punctuation]; [word_re]: the matches of [\w+|[^\w\s]+];
    [gpt_re]: those of the expression of byte_level.rs:45-48. *)
Inductive script := ScAny | ScHan | ScHiragana | ScKatakana | ScOther (n : N).
Record tables := mkTables {
  is_ws : char -> bool;
  is_numeric : char -> bool;
  is_punct : char -> bool;
  get_script : char -> script;
  word_re : str -> list offsets_t;
  gpt_re : str -> list offsets_t
}.

Definition script_eqb (a b : script) : bool :=
  match a, b with
  | ScAny, ScAny | ScHan, ScHan | ScHiragana, ScHiragana | ScKatakana, ScKatakana => true
  | ScOther n, ScOther m => N.eqb n m
  | _, _ => false
  end.

(** A closure [|_, s| s.split(pattern, behavior)] for [PreTokenizedString::split]. *)
Definition split_with (ms : str -> list (offsets_t * bool)) (b : behavior) (_ : nat) (ns : nstring) : res unit (list split) :=
  let! l := n_split ns (ms (n_normalized ns)) b in Ok (plain_splits l).

(** [char::is_ascii_punctuation] (core library): !-/ :-@ [-` {-~. *)
Definition is_ascii_punct (c : char) : bool :=
  ((33 <=? c) && (c <=? 47) || (58 <=? c) && (c <=? 64) || (91 <=? c) && (c <=? 96) || (123 <=? c) && (c <=? 126))%N.
(** [is_bert_punc], bert.rs:5-7; [is_punc], punctuation.rs:7-9. *)
Definition is_punc (T : tables) (c : char) : bool := is_ascii_punct c || is_punct T c.

(** [slice::chunks] (core library) for a positive size: [cur] is the chunk being
    filled. *)
Fixpoint chunks {A} (n : nat) (cur l : list A) : list (list A) :=
  match l with
  | [] => if is_nil cur then [] else [cur]
  | x :: l' =>
      let cur := cur ++ [x] in
      if length cur =? n then cur :: chunks n [] l' else chunks n cur l'
  end.
(** The range of a chunk, fixed_length.rs:36-40. *)
Definition chunk_range (len : nat) (chunk : list (nat * char)) : offsets_t :=
  (match chunk with [] => 0 | (i, _) :: _ => i end,
   match rev chunk with [] => len | (i, c) :: _ => i + len_utf8 c end).
(** The closure of [FixedLength::pre_tokenize], fixed_length.rs:27-48; [chunks(0)]
    panics. *)
Definition fixed_one (n : nat) (_ : nat) (ns : nstring) : res unit (list split) :=
  let text := n_normalized ns in
  if is_nil text then Ok []
  else if n =? 0 then Panic
  else
    let! l := map_res (fun o => n_slice ns (rn (fst o) (snd o)))
                      (map (chunk_range (blen text)) (chunks n [] (char_indices 0 text))) in
    Ok (plain_splits l).

(** [fixed_script], unicode_scripts/pre_tokenizer.rs:25-38. *)
Definition fixed_script (T : tables) (c : char) : script :=
  if N.eqb c 0x30FC then ScHan
  else if N.eqb c 32 then ScAny
  else match get_script T c with
       | ScHiragana => ScHan
       | ScKatakana => ScHan
       | s => s
       end.
(** The [filter_map] of unicode_scripts/pre_tokenizer.rs:46-64. *)
Definition differs (last : option script) (s : script) : bool :=
  match last with None => true | Some l => negb (script_eqb l s) end.
Fixpoint script_starts (T : tables) (last : option script) (offset : nat) (s : str) : list nat :=
  match s with
  | [] => []
  | c :: s' =>
      let sc := fixed_script T c in
      let starts := negb (script_eqb sc ScAny) && differs last ScAny && differs last sc in
      let last := if negb (script_eqb sc ScAny) then Some sc else last in
      (if starts then [offset] else []) ++ script_starts T last (offset + len_utf8 c) s'
  end.
(** [windows(2)] (core library). *)
Fixpoint windows2 {A} (l : list A) : list (A * A) :=
  match l with
  | a :: ((b :: _) as r) => (a, b) :: windows2 r
  | _ => []
  end.
(** The closure of [UnicodeScripts::pre_tokenize], unicode_scripts/pre_tokenizer.rs:41-74. *)
Definition scripts_one (T : tables) (_ : nat) (ns : nstring) : res unit (list split) :=
  let ranges := script_starts T None 0 (n_normalized ns) ++ [blen (n_normalized ns)] in
  let! l := map_res (expect_slice ns) (windows2 ranges) in
  Ok (plain_splits l).

(** [PreTokenizerWrapper], pre_tokenizers/mod.rs:30-44, with the fields of each
    pre-tokenizer that its work depends on.  [PtSplit] has the engine built by
    [Split::new], split.rs:78-97. *)
Inductive pre_tokenizer :=
| PtBert
| PtByteLevel (add_prefix_space use_regex : bool)
| PtDelimiter (c : char)
| PtMetaspace (rep : char) (scheme : prepend_scheme) (do_split : bool)
| PtWhitespace
| PtSequence (l : list pre_tokenizer)
| PtSplit (find_iter : str -> list offsets_t) (b : behavior) (invert : bool)
| PtPunctuation (b : behavior)
| PtWhitespaceSplit
| PtDigits (individual : bool)
| PtScripts
| PtFixed (n : nat).

(** [PreTokenizerWrapper::pre_tokenize], mod.rs:46-63: [BertPreTokenizer], bert.rs:13-18;
    [CharDelimiterSplit], delimiter.rs:21-28; [Digits], digits.rs:27-40;
    [Punctuation], punctuation.rs:34-38; [Sequence], sequence.rs:41-48;
    [Split], split.rs:99-107; [Whitespace], whitespace.rs:20-29;
    [WhitespaceSplit], whitespace.rs:35-41. *)
Fixpoint pre_tokenize (T : tables) (p : pre_tokenizer) (pt : pretok) : res unit pretok :=
  match p with
  | PtBert =>
      let! pt := pt_split (split_with (pred_find_matches (is_ws T)) Removed) pt in
      pt_split (split_with (pred_find_matches (is_punc T)) Isolated) pt
  | PtByteLevel aps use_regex => byte_level_pre_tokenize (gpt_re T) aps use_regex pt
  | PtDelimiter c => pt_split (split_with (char_find_matches c) Removed) pt
  | PtMetaspace rep scheme do_split => metaspace_pre_tokenize rep scheme do_split pt
  | PtWhitespace => pt_split (split_with (fun s => invert_matches (regex_find_matches (word_re T) s)) Removed) pt
  | PtSequence l =>
      (fix go (l : list pre_tokenizer) (pt : pretok) : res unit pretok :=
         match l with
         | [] => Ok pt
         | p :: l' => let! pt := pre_tokenize T p pt in go l' pt
         end) l pt
  | PtSplit find_iter b invert =>
      if invert then pt_split (split_with (fun s => invert_matches (regex_find_matches find_iter s)) b) pt
      else pt_split (split_with (regex_find_matches find_iter) b) pt
  | PtPunctuation b => pt_split (split_with (pred_find_matches (is_punc T)) b) pt
  | PtWhitespaceSplit => pt_split (split_with (pred_find_matches (is_ws T)) Removed) pt
  | PtDigits individual =>
      if individual then pt_split (split_with (pred_find_matches (is_numeric T)) Isolated) pt
      else pt_split (split_with (pred_find_matches (is_numeric T)) Contiguous) pt
  | PtScripts => pt_split (scripts_one T) pt
  | PtFixed n => pt_split (fixed_one n) pt
  end.
