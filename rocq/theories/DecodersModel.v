(** Model of the decoders, and of the two pre-tokenisers they invert.
    Sources: /repo/tokenizers/src/decoders/{bpe,byte_fallback,ctc,fuse,sequence,strip,wordpiece}.rs,
    /repo/tokenizers/src/pre_tokenizers/{byte_level,metaspace}.rs,
    /repo/tokenizers/src/normalizers/replace.rs. *)
From Coq Require Import ZArith.
From Verif Require Import Base StrBytes Utf8 PatternModel EncodingModel NormModel PreTokModel BpeModel ByteLevelModel.

(** [str::replace] (core library): leftmost non-overlapping occurrences, for a
    non-empty pattern; [skip] counts the characters of the current occurrence
    still to be passed.  The empty pattern occurs at every character boundary. *)
Fixpoint replace_scan (pat rep : str) (skip : nat) (s : str) : str :=
  match s with
  | [] => []
  | c :: s' =>
      match skip with
      | S k => replace_scan pat rep k s'
      | 0 => if is_prefix pat s then rep ++ replace_scan pat rep (length pat - 1) s'
             else c :: replace_scan pat rep 0 s'
      end
  end.

Definition str_replace (pat rep s : str) : str :=
  if is_nil pat then rep ++ flat_map (fun c => c :: rep) s else replace_scan pat rep 0 s.

(** [str::strip_prefix] (core library). *)
Definition strip_prefix (pat s : str) : option str :=
  if is_prefix pat s then Some (skipn (length pat) s) else None.

(** The literals of [cleanup], wordpiece.rs:33-43, in order. *)
Definition cleanup_rules : list (str * str) :=
  [([32; 46], [46]); ([32; 63], [63]); ([32; 33], [33]); ([32; 44], [44]);
   ([32; 39; 32], [39]); ([32; 110; 39; 116], [110; 39; 116]); ([32; 39; 109], [39; 109]);
   ([32; 100; 111; 32; 110; 111; 116], [32; 100; 111; 110; 39; 116]);
   ([32; 39; 115], [39; 115]); ([32; 39; 118; 101], [39; 118; 101]); ([32; 39; 114; 101], [39; 114; 101])]%N.

(** [cleanup], wordpiece.rs:31-44. *)
Definition wp_cleanup (s : str) : str :=
  fold_left (fun s r => str_replace (fst r) (snd r) s) cleanup_rules s.

(** [PrependScheme], metaspace.rs:5-14. *)
Inductive prepend_scheme := SFirst | SNever | SAlways.
Definition is_never (s : prepend_scheme) : bool := match s with SNever => true | _ => false end.

(** ** The decoders on a list of tokens *)

(** [BPEDecoder::decode_chain], bpe.rs:25-38: [tokens.len() - 1] underflows on
    an empty list. *)
Fixpoint bpe_decode_from (suffix : str) (tokens : list str) : list str :=
  match tokens with
  | [] => []
  | t :: rest => str_replace suffix (if is_nil rest then [] else [32%N]) t :: bpe_decode_from suffix rest
  end.
Definition bpe_decode {E} (suffix : str) (tokens : list str) : res E (list str) :=
  if is_nil tokens then Panic else Ok (bpe_decode_from suffix tokens).

(** The closure of [ByteLevel::decode_chain], byte_level.rs:159-168: the bytes of
    one token. *)
Definition token_bytes (t : str) : list N :=
  match map_opt char_bytes t with
  | Some bs => bs
  | None => encode_utf8 t
  end.
(** [ByteLevel::decode_chain], byte_level.rs:156-171. *)
Definition byte_level_decode (tokens : list str) : list str :=
  [from_utf8_lossy (flat_map token_bytes tokens)].

(** [WordPiece::decode_chain], wordpiece.rs:47-61; [first] is [i == 0]. *)
Fixpoint wordpiece_decode (prefix : str) (cleanup first : bool) (tokens : list str) : list str :=
  match tokens with
  | [] => []
  | t :: rest =>
      let t := if first then t
               else match strip_prefix prefix t with
                    | Some tk => tk
                    | None => 32%N :: t
                    end in
      (if cleanup then wp_cleanup t else t) :: wordpiece_decode prefix cleanup false rest
  end.

(** [Metaspace::decode_chain], metaspace.rs:151-172; [first] is [i == 0]. *)
Definition metaspace_char (rep : char) (drop : bool) (c : char) : str :=
  if N.eqb c rep then (if drop then [] else [32%N]) else [c].
Fixpoint metaspace_decode (rep : char) (scheme : prepend_scheme) (first : bool) (tokens : list str) : list str :=
  match tokens with
  | [] => []
  | t :: rest =>
      flat_map (metaspace_char rep (first && negb (is_never scheme))) t
      :: metaspace_decode rep scheme false rest
  end.

(** [Itertools::dedup]: the first of every run of equal consecutive tokens. *)
Fixpoint dedup (l : list str) : list str :=
  match l with
  | [] => []
  | x :: rest => match rest with
                 | [] => [x]
                 | y :: _ => if str_eqb x y then dedup rest else x :: dedup rest
                 end
  end.

(** The closure of [CTC::decode_chain], ctc.rs:48-59. *)
Definition ctc_token (pad delim : str) (cleanup : bool) (t : str) : str :=
  let replaced := str_replace pad [] t in
  if cleanup then str_replace delim [32%N] (wp_cleanup replaced) else replaced.
(** [CTC::decode_chain], ctc.rs:44-62. *)
Definition ctc_decode (pad delim : str) (cleanup : bool) (tokens : list str) : list str :=
  filter (fun t => negb (is_nil t)) (map (ctc_token pad delim cleanup) (dedup tokens)).

(** [Replace::decode_chain], replace.rs:88-106: [find_iter] is the regex engine;
    [&token[start..stop]] panics unless the range is on character boundaries. *)
Fixpoint replace_parts {E} (content token : str) (ms : list (offsets_t * bool)) : res E str :=
  match ms with
  | [] => Ok []
  | ((a, b), is_match) :: ms' =>
      let! part := if is_match then Ok content else of_option (str_get token a b) in
      let! rest := replace_parts content token ms' in
      Ok (part ++ rest)
  end.
Definition replace_decode {E} (find_iter : str -> list offsets_t) (content : str) (tokens : list str) : res E (list str) :=
  map_res (fun t => replace_parts content t (regex_find_matches find_iter t)) tokens.

(** The loops of [Strip::decode_chain], strip.rs:34-53.  The first counts the
    leading occurrences, at most [start]; the second, over [0..stop], panics
    when [chars.len() - i - 1] underflows. *)
Fixpoint strip_start (content : char) (start : nat) (chars : str) : nat :=
  match start, chars with
  | S k, c :: rest => if N.eqb c content then S (strip_start content k rest) else 0
  | _, _ => 0
  end.
Fixpoint strip_stop {E} (content : char) (stop : nat) (rev_chars : str) : res E nat :=
  match stop with
  | 0 => Ok (length rev_chars)
  | S k => match rev_chars with
           | [] => Panic
           | c :: rest => if N.eqb c content then strip_stop content k rest else Ok (length rev_chars)
           end
  end.
(** The closure, strip.rs:31-57. *)
Definition strip_token {E} (content : char) (start stop : nat) (t : str) : res E str :=
  let start_cut := strip_start content start t in
  let! stop_cut := strip_stop content stop (rev t) in
  slice t start_cut stop_cut.

(** [u8::from_str_radix(_, 16)] on two bytes (core library): two hexadecimal
    digits of either case, or a plus sign and one digit. *)
Definition hex_value (c : char) : option N :=
  if (N.leb 48 c && N.leb c 57)%bool then Some (c - 48)%N
  else if (N.leb 65 c && N.leb c 70)%bool then Some (c - 55)%N
  else if (N.leb 97 c && N.leb c 102)%bool then Some (c - 87)%N
  else None.
Definition radix16 (s : str) : option N :=
  match s with
  | [a; b] =>
      if N.eqb a 43 then hex_value b
      else match hex_value a, hex_value b with
           | Some x, Some y => Some (x * 16 + y)%N
           | _, _ => None
           end
  | _ => None
  end.

(** byte_fallback.rs:30-34: six bytes, prefix "<0x", last character '>'.
    [&token[3..5]] is the panic of [of_option]. *)
Definition byte_of_token {E} (t : str) : res E (option N) :=
  if (blen t =? 6) && is_prefix [60; 48; 120]%N t && (match rev t with c :: _ => N.eqb c 62 | [] => false end)
  then let! mid := of_option (str_get t 3 5) in Ok (radix16 mid)
  else Ok None.

(** byte_fallback.rs:39-48 and 53-61: what a run of bytes becomes. *)
Definition flush_bytes (bs : list N) : list str :=
  if is_nil bs then []
  else match from_utf8 bs with
       | Some s => [s]
       | None => repeat [replacement_char] (length bs)
       end.
(** [ByteFallback::decode_chain], byte_fallback.rs:25-62. *)
Fixpoint fallback_loop {E} (tokens : list str) (previous : list N) : res E (list str) :=
  match tokens with
  | [] => Ok (flush_bytes previous)
  | t :: rest =>
      let! b := byte_of_token t in
      match b with
      | Some b => fallback_loop rest (previous ++ [b])
      | None => let! out := fallback_loop rest [] in Ok (flush_bytes previous ++ t :: out)
      end
  end.
Definition fallback_decode {E} (tokens : list str) : res E (list str) := fallback_loop tokens [].

(** [DecoderWrapper], decoders/mod.rs:25-38.  The regex of [Replace] is an
    engine function. *)
Inductive decoder :=
| DBpe (suffix : str)
| DByteLevel
| DWordPiece (prefix : str) (cleanup : bool)
| DMetaspace (rep : char) (scheme : prepend_scheme)
| DCtc (pad delim : str) (cleanup : bool)
| DSequence (ds : list decoder)
| DReplace (find_iter : str -> list offsets_t) (content : str)
| DFuse
| DStrip (content : char) (start stop : nat)
| DByteFallback.

(** [DecoderWrapper::decode_chain], decoders/mod.rs:152-167; [Fuse], fuse.rs:22-27;
    [Sequence], sequence.rs:26-33.  No decoder returns an error. *)
Fixpoint decode_chain (d : decoder) (tokens : list str) : res unit (list str) :=
  match d with
  | DBpe suffix => bpe_decode suffix tokens
  | DByteLevel => Ok (byte_level_decode tokens)
  | DWordPiece prefix cleanup => Ok (wordpiece_decode prefix cleanup true tokens)
  | DMetaspace rep scheme => Ok (metaspace_decode rep scheme true tokens)
  | DCtc pad delim cleanup => Ok (ctc_decode pad delim cleanup tokens)
  | DSequence ds =>
      (fix go (ds : list decoder) (tokens : list str) : res unit (list str) :=
         match ds with
         | [] => Ok tokens
         | d :: ds' => let! tokens := decode_chain d tokens in go ds' tokens
         end) ds tokens
  | DReplace find_iter content => replace_decode find_iter content tokens
  | DFuse => Ok [concat tokens]
  | DStrip content start stop => map_res (strip_token content start stop) tokens
  | DByteFallback => fallback_decode tokens
  end.

(** [Decoder::decode], tokenizer/mod.rs:184-187. *)
Definition decode_tokens (d : decoder) (tokens : list str) : res unit str :=
  let! parts := decode_chain d tokens in Ok (concat parts).

(** ** The pre-tokenisers *)

(** [str::starts_with(char)] (core library). *)
Definition starts_with_char (c : char) (s : str) : bool :=
  match s with [] => false | x :: _ => N.eqb x c end.

Definition plain_splits (l : list nstring) : list split := map (fun ns => mkSplit ns None) l.

(** The closure of [Metaspace::pre_tokenize], metaspace.rs:124-146. *)
Definition metaspace_one (rep : char) (scheme : prepend_scheme) (do_split : bool) (_ : nat) (ns : nstring)
  : res unit (list split) :=
  let! ns := n_replace ns (char_find_matches 32%N (n_normalized ns)) [rep] in
  let prepends :=
    match scheme with
    | SAlways => negb (starts_with_char rep (n_normalized ns))
    | SFirst => negb (starts_with_char rep (n_normalized ns)) && (fst (offsets_original ns) =? 0)
    | SNever => false
    end in
  let! ns := if prepends then n_prepend ns [rep] else Ok ns in
  let! l := if do_split then n_split ns (char_find_matches rep (n_normalized ns)) MergedWithNext else Ok [ns] in
  Ok (plain_splits l).
(** [Metaspace::pre_tokenize], metaspace.rs:122-148. *)
Definition metaspace_pre_tokenize (rep : char) (scheme : prepend_scheme) (do_split : bool) (pt : pretok) : res unit pretok :=
  pt_split (metaspace_one rep scheme do_split) pt.

(** The closure of byte_level.rs:122-131; [find_iter] is the engine on the GPT-2
    expression. *)
Definition byte_level_one (find_iter : str -> list offsets_t) (add_prefix_space use_regex : bool) (_ : nat) (ns : nstring)
  : res unit (list split) :=
  let! ns := if add_prefix_space && negb (starts_with_char 32%N (n_normalized ns)) then n_prepend ns [32%N] else Ok ns in
  let! l := if use_regex then n_split ns (regex_find_matches find_iter (n_normalized ns)) Isolated else Ok [ns] in
  Ok (plain_splits l).

(** One character, byte_level.rs:135-143: [BYTES_CHAR[b]] panics on a missing key. *)
Definition byte_level_char {E} (c : char) : res E (list (char * Z)) :=
  let! cs := map_res (fun b => of_option (bytes_char b)) (encode_char c) in
  Ok (first_replaces cs).
Definition byte_level_norm (ns : nstring) : res unit nstring :=
  let! ts := map_res byte_level_char (n_normalized ns) in
  transform ns (concat ts) 0.
(** [ByteLevel::pre_tokenize], byte_level.rs:119-148. *)
Definition byte_level_pre_tokenize (find_iter : str -> list offsets_t) (add_prefix_space use_regex : bool) (pt : pretok) : res unit pretok :=
  let! pt := pt_split (byte_level_one find_iter add_prefix_space use_regex) pt in
  pt_normalize byte_level_norm pt.
