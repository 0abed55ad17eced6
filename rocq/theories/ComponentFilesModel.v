(** Model of saving and loading normalizers, pre-tokenizers, post-processors and
    decoders.
    Sources: /repo/tokenizers/src/{normalizers,pre_tokenizers,processors,decoders}/*.rs,
    /repo/tokenizers/src/utils/mod.rs ([impl_serde_type]).
    JSON texts are their values (see ModelFilesModel).  serde also reads a struct
    from an array of its fields, and the name of a variant from an object: no
    component is written so, and here this is refused.  So is an object with a field
    twice (serde refuses it, or keeps the last, depending on the path taken). *)
From Coq Require Import String.
From Verif Require Import Base StrBytes AMap EncodingModel NormModel PatternModel DecodersModel ProcessorsModel NormalizersModel PreTokenizersModel ModelFilesModel.

(** [SplitPattern], pre_tokenizers/split.rs:9-13, and [ReplacePattern],
    normalizers/replace.rs:8-12. *)
Inductive pattern := PaString (s : str) | PaRegex (s : str).

(** What is external: [SysRegex::new] (of the escaped text for [PaString]), the
    chart made of the base64 text of [Precompiled] (crate spm_precompiled), and the
    grapheme segmentation; [None] is an error. *)
Record engines := mkEngines {
  en_regex : pattern -> option (str -> list offsets_t);
  en_chart : str -> option (str -> option str);
  en_graphemes : str -> list str }.

(** ** The components as data *)
(** [NormalizerWrapper], normalizers/mod.rs:22-40. *)
Inductive norm_config :=
| CnBert (clean_text handle_chinese_chars : bool) (strip_accents : option bool) (lowercase : bool)
| CnStrip (strip_left strip_right : bool)
| CnStripAccents
| CnNFC
| CnNFD
| CnNFKC
| CnNFKD
| CnSequence (l : list norm_config)
| CnLowercase
| CnNmt
| CnPrecompiled (charsmap : str)
| CnReplace (p : pattern) (content : str)
| CnPrepend (prepend : str)
| CnByteLevel.

(** [PreTokenizerWrapper], pre_tokenizers/mod.rs:28-43. *)
Inductive pre_config :=
| CpBert
| CpByteLevel (add_prefix_space trim_offsets use_regex : bool)
| CpDelimiter (c : char)
| CpMetaspace (rep : char) (scheme : prepend_scheme) (do_split : bool)
| CpWhitespace
| CpSequence (l : list pre_config)
| CpSplit (p : pattern) (b : behavior) (invert : bool)
| CpPunctuation (b : behavior)
| CpWhitespaceSplit
| CpDigits (individual : bool)
| CpScripts
| CpFixed (n : nat).

(** [DecoderWrapper], decoders/mod.rs:27-40. *)
Inductive dec_config :=
| CdBpe (suffix : str)
| CdByteLevel (add_prefix_space trim_offsets use_regex : bool)
| CdWordPiece (prefix : str) (cleanup : bool)
| CdMetaspace (rep : char) (scheme : prepend_scheme) (do_split : bool)
| CdCtc (pad delim : str) (cleanup : bool)
| CdSequence (l : list dec_config)
| CdReplace (p : pattern) (content : str)
| CdFuse
| CdStrip (content : char) (start stop : nat)
| CdByteFallback.

(** [SpecialToken], template.rs:193-200, with its [id]. *)
Record special_token := mkSpecialToken { st_id : str; st_ids : list N; st_tokens : list str }.
(** [TemplateProcessing], template.rs:336-352. *)
Record template_config := mkTemplateConfig {
  tc_single : list piece; tc_pair : list piece; tc_added_single : nat; tc_added_pair : nat; tc_special : list (str * special_token) }.

(** [PostProcessorWrapper], processors/mod.rs:17-26. *)
Inductive proc_config :=
| CqRoberta (sep cls : tok_id) (trim_offsets add_prefix_space : bool)
| CqBert (sep cls : tok_id)
| CqByteLevel (add_prefix_space trim_offsets use_regex : bool)
| CqTemplate (t : template_config)
| CqSequence (l : list proc_config).

(** ** What they do: the components of the other files *)
Definition as_special (s : special_token) : special := mkSpecial (st_ids s) (st_tokens s).
Definition as_specials (l : list (str * special_token)) : list (str * special) := map (fun e => (fst e, as_special (snd e))) l.
Definition template_of (t : template_config) : template :=
  mkTemplate (tc_single t) (tc_pair t) (tc_added_single t) (tc_added_pair t) (as_specials (tc_special t)).
Fixpoint proc_of (c : proc_config) : processor :=
  match c with
  | CqRoberta sep cls trim aps => PRoberta sep cls trim aps
  | CqBert sep cls => PBert sep cls
  | CqByteLevel aps trim _ => PByteLevel trim aps
  | CqTemplate t => PTemplate (template_of t)
  | CqSequence l => PSequence (map proc_of l)
  end.

Section with_engines.
  Context (E : engines).

  (** [Replace::new], replace.rs:66-78, [Precompiled::from] (external): without an
      engine there is no such normalizer. *)
  Definition no_engine : str -> list offsets_t := fun _ => [].
  Definition regex_of (p : pattern) : str -> list offsets_t := match en_regex E p with Some f => f | None => no_engine end.
  Definition chart_of (c : str) : str -> option str := match en_chart E c with Some f => f | None => fun _ => None end.

  Fixpoint norm_of (c : norm_config) : normalizer :=
    match c with
    | CnBert a b s l => NBert a b s l
    | CnStrip l r => NStrip l r
    | CnStripAccents => NStripAccents
    | CnNFC => NNFC
    | CnNFD => NNFD
    | CnNFKC => NNFKC
    | CnNFKD => NNFKD
    | CnSequence l => NSequence (map norm_of l)
    | CnLowercase => NLowercase
    | CnNmt => NNmt
    | CnPrecompiled m => NPrecompiled (chart_of m) (en_graphemes E)
    | CnReplace p s => NReplace (regex_of p) s
    | CnPrepend s => NPrepend s
    | CnByteLevel => NByteLevel
    end.

  Fixpoint pre_of (c : pre_config) : pre_tokenizer :=
    match c with
    | CpBert => PtBert
    | CpByteLevel aps _ use_regex => PtByteLevel aps use_regex
    | CpDelimiter c => PtDelimiter c
    | CpMetaspace rep scheme sp => PtMetaspace rep scheme sp
    | CpWhitespace => PtWhitespace
    | CpSequence l => PtSequence (map pre_of l)
    | CpSplit p b i => PtSplit (regex_of p) b i
    | CpPunctuation b => PtPunctuation b
    | CpWhitespaceSplit => PtWhitespaceSplit
    | CpDigits i => PtDigits i
    | CpScripts => PtScripts
    | CpFixed n => PtFixed n
    end.

  Fixpoint dec_of (c : dec_config) : decoder :=
    match c with
    | CdBpe s => DBpe s
    | CdByteLevel _ _ _ => DByteLevel
    | CdWordPiece p c => DWordPiece p c
    | CdMetaspace rep scheme _ => DMetaspace rep scheme
    | CdCtc p d c => DCtc p d c
    | CdSequence l => DSequence (map dec_of l)
    | CdReplace p s => DReplace (regex_of p) s
    | CdFuse => DFuse
    | CdStrip c a b => DStrip c a b
    | CdByteFallback => DByteFallback
    end.
End with_engines.

Section files.
  Context {W : Type} (E : engines).
  Notation value := (json W).
  Notation "'result' A" := (res file_error A) (at level 10).

  (** ** Reading the fields of a struct *)
  Definition field (k : string) (l : list (str * value)) : result (option value) :=
    match filter (fun kv => str_eqb (fst kv) (key k)) l with
    | [] => Ok None
    | [kv] => Ok (Some (snd kv))
    | _ => Err EFile
    end.
  (** A field, a field with [#[serde(default)]], an [Option] field. *)
  Definition need {T} (k : string) (read : value -> result T) (l : list (str * value)) : result T :=
    let! o := field k l in match o with Some v => read v | None => Err EFile end.
  Definition need_or {T} (k : string) (read : value -> result T) (d : T) (l : list (str * value)) : result T :=
    let! o := field k l in match o with Some v => read v | None => Ok d end.
  Definition may {T} (k : string) (read : value -> result T) (l : list (str * value)) : result (option T) :=
    let! o := field k l in match o with Some v => as_option read v | None => Ok None end.

  Definition as_char (j : value) : result char := match j with JStr [c] => Ok c | _ => Err EFile end.
  Definition as_nat (j : value) : result nat := let! n := as_usize j in Ok (N.to_nat n).
  Definition as_array (j : value) : result (list value) := match j with JArr l => Ok l | _ => Err EFile end.
  Definition of_nat (n : nat) : value := JInt (N.of_nat n).
  (** An enum of one unit variant; [MustBe!]. *)
  Definition the_text (s : string) (j : value) : result unit :=
    match j with JStr t => if str_eqb t (key s) then Ok tt else Err EFile | _ => Err EFile end.
  (** The check of [impl_serde_type], utils/mod.rs:117-214: the structs without it
      do not look at the field "type". *)
  Definition typed {T} (name : string) (l : list (str * value)) (r : result T) : result T :=
    let! _ := need "type" (the_text name) l in r.
  (** The results for the elements of a [Vec], in order. *)
  Fixpoint collect {T} (l : list (result T)) : result (list T) :=
    match l with
    | [] => Ok []
    | r :: l' => let! x := r in let! xs := collect l' in Ok (x :: xs)
    end.
  (** An untagged enum: the first variant that can be read. *)
  Fixpoint first_ok {T} (l : list (result T)) : result T :=
    match l with
    | [] => Err EFile
    | r :: l' => or_try r (first_ok l')
    end.
  (** An array of components in the field [k]. *)
  Definition nested {T} (k : string) (l : list (str * value)) (kids : list (result T)) : result (list T) :=
    let! _ := need k as_array l in collect kids.
  Definition kids {T} (k : string) (f : value -> result T) (l : list (str * value)) : list (result T) :=
    flat_map (fun kv => if str_eqb (fst kv) (key k) then match snd kv with JArr xs => map f xs | _ => [] end else []) l.

  (** ** Small types *)
  (** Derived for [SplitPattern], [ReplacePattern]. *)
  Definition of_pattern (p : pattern) : value :=
    match p with PaString s => JObj [(key "String", JStr s)] | PaRegex s => JObj [(key "Regex", JStr s)] end.
  Definition as_pattern (j : value) : result pattern :=
    match j with
    | JObj [(k, JStr s)] =>
        if str_eqb k (key "String") then Ok (PaString s) else if str_eqb k (key "Regex") then Ok (PaRegex s) else Err EFile
    | _ => Err EFile
    end.
  (** [Replace::new], [Split::new] build the engine. *)
  Definition compiled (p : pattern) : result unit := match en_regex E p with Some _ => Ok tt | None => Err EFile end.

  (** [SplitDelimiterBehavior], normalizer.rs:86-100. *)
  Definition of_behavior (b : behavior) : value :=
    JStr (key match b with
              | Removed => "Removed"
              | Isolated => "Isolated"
              | MergedWithPrevious => "MergedWithPrevious"
              | MergedWithNext => "MergedWithNext"
              | Contiguous => "Contiguous"
              end).
  Definition as_behavior (j : value) : result behavior :=
    match j with
    | JStr s =>
        if str_eqb s (key "Removed") then Ok Removed
        else if str_eqb s (key "Isolated") then Ok Isolated
        else if str_eqb s (key "MergedWithPrevious") then Ok MergedWithPrevious
        else if str_eqb s (key "MergedWithNext") then Ok MergedWithNext
        else if str_eqb s (key "Contiguous") then Ok Contiguous
        else Err EFile
    | _ => Err EFile
    end.

  (** [PrependScheme], metaspace.rs:5-14, in snake case. *)
  Definition of_scheme (s : prepend_scheme) : value :=
    JStr (key match s with SFirst => "first" | SNever => "never" | SAlways => "always" end).
  Definition as_scheme (j : value) : result prepend_scheme :=
    match j with
    | JStr s =>
        if str_eqb s (key "first") then Ok SFirst
        else if str_eqb s (key "never") then Ok SNever
        else if str_eqb s (key "always") then Ok SAlways
        else Err EFile
    | _ => Err EFile
    end.

  (** ** Structs used by several wrappers *)
  (** [ByteLevel], byte_level.rs:51-72. *)
  Definition byte_level_to (aps trim use_regex : bool) : value :=
    JObj [(key "type", JStr (key "ByteLevel")); (key "add_prefix_space", JBool aps); (key "trim_offsets", JBool trim); (key "use_regex", JBool use_regex)].
  Definition byte_level_from {T} (f : bool -> bool -> bool -> T) (l : list (str * value)) : result T :=
    typed "ByteLevel" l
      (let! aps := need "add_prefix_space" as_bool l in
       let! trim := need "trim_offsets" as_bool l in
       let! use_regex := need_or "use_regex" as_bool true l in
       Ok (f aps trim use_regex)).

  (** [Metaspace], metaspace.rs:22-78; [str_rep] is not written. *)
  Definition metaspace_to (rep : char) (scheme : prepend_scheme) (sp : bool) : value :=
    JObj [(key "type", JStr (key "Metaspace")); (key "replacement", JStr [rep]); (key "prepend_scheme", of_scheme scheme); (key "split", JBool sp)].
  Definition metaspace_from {T} (f : char -> prepend_scheme -> bool -> T) (l : list (str * value)) : result T :=
    typed "Metaspace" l
      (let! rep := need "replacement" as_char l in
       let! aps := may "add_prefix_space" as_bool l in
       let! scheme := need_or "prepend_scheme" as_scheme SAlways l in
       let! sp := may "split" as_bool l in
       let! _ := may "str_rep" as_str l in
       match aps with
       | Some false => if is_never scheme then Ok (f rep SNever (or_else sp true)) else Err EFile
       | _ => Ok (f rep scheme (or_else sp true))
       end).

  (** [Replace], replace.rs:26-52: the field "type" is not looked at. *)
  Definition replace_to (p : pattern) (content : str) : value :=
    JObj [(key "type", JStr (key "Replace")); (key "pattern", of_pattern p); (key "content", JStr content)].
  Definition replace_from {T} (f : pattern -> str -> T) (l : list (str * value)) : result T :=
    let! p := need "pattern" as_pattern l in
    let! content := need "content" as_str l in
    let! _ := compiled p in
    Ok (f p content).

  Definition unit_to (name : string) : value := JObj [(key "type", JStr (key name))].
  Definition unit_from {T} (name : string) (x : T) (l : list (str * value)) : result T := typed name l (Ok x).

  (** The name in the field "type" of [Tagged]. *)
  Definition type_name (l : list (str * value)) : option str :=
    match field "type" l with Ok (Some (JStr s)) => Some s | _ => None end.
  (** [match variant], or else [Legacy]. *)
  Fixpoint by_name {T} (s : str) (l : list (string * T)) : option T :=
    match l with
    | [] => None
    | (n, x) :: l' => if str_eqb s (key n) then Some x else by_name s l'
    end.
  Definition tagged_or {T} (l : list (str * value)) (variants : list (string * result T)) (legacy : list (result T)) : result T :=
    match type_name l with
    | Some s => match by_name s variants with Some r => r | None => first_ok legacy end
    | None => first_ok legacy
    end.

  (** ** Normalizers *)
  (** Derived: bert.rs:50-64, strip.rs:6-12, 46-48, unicode.rs, utils.rs:7-13, 52-54,
      replace.rs:45-52, prepend.rs:4-8, byte_level.rs:7-9; [Precompiled] of the crate
      spm_precompiled. *)
  Definition of_option_bool (o : option bool) : value := match o with Some b => JBool b | None => JNull end.
  Fixpoint norm_to_json (c : norm_config) : value :=
    match c with
    | CnBert a b s l => JObj [(key "type", JStr (key "BertNormalizer")); (key "clean_text", JBool a); (key "handle_chinese_chars", JBool b); (key "strip_accents", of_option_bool s); (key "lowercase", JBool l)]
    | CnStrip l r => JObj [(key "type", JStr (key "Strip")); (key "strip_left", JBool l); (key "strip_right", JBool r)]
    | CnStripAccents => unit_to "StripAccents"
    | CnNFC => unit_to "NFC"
    | CnNFD => unit_to "NFD"
    | CnNFKC => unit_to "NFKC"
    | CnNFKD => unit_to "NFKD"
    | CnSequence l => JObj [(key "type", JStr (key "Sequence")); (key "normalizers", JArr (map norm_to_json l))]
    | CnLowercase => unit_to "Lowercase"
    | CnNmt => unit_to "Nmt"
    | CnPrecompiled m => JObj [(key "type", JStr (key "Precompiled")); (key "precompiled_charsmap", JStr m)]
    | CnReplace p s => replace_to p s
    | CnPrepend s => JObj [(key "type", JStr (key "Prepend")); (key "prepend", JStr s)]
    | CnByteLevel => unit_to "ByteLevel"
    end.

  Definition bert_norm_from (l : list (str * value)) : result norm_config :=
    let! a := need "clean_text" as_bool l in
    let! b := need "handle_chinese_chars" as_bool l in
    let! s := may "strip_accents" as_bool l in
    let! lo := need "lowercase" as_bool l in
    Ok (CnBert a b s lo).
  Definition strip_norm_from (l : list (str * value)) : result norm_config :=
    let! a := need "strip_left" as_bool l in
    let! b := need "strip_right" as_bool l in
    Ok (CnStrip a b).
  Definition precompiled_from (l : list (str * value)) : result norm_config :=
    let! m := need "precompiled_charsmap" as_str l in
    match en_chart E m with Some _ => Ok (CnPrecompiled m) | None => Err EFile end.
  Definition prepend_from (l : list (str * value)) : result norm_config :=
    let! s := need "prepend" as_str l in Ok (CnPrepend s).
  Definition norm_seq_from (l : list (str * value)) (ks : list (result norm_config)) : result norm_config :=
    let! cs := nested "normalizers" l ks in Ok (CnSequence cs).
  (** [expect]. *)
  Definition expected {T} (r : result T) : result T := match r with Ok x => Ok x | _ => Panic end.

  (** [Deserialize for NormalizerWrapper], normalizers/mod.rs:42-182. *)
  Definition norm_read (l : list (str * value)) (ks : list (result norm_config)) : result norm_config :=
    tagged_or l
      [("Bert"%string, bert_norm_from l); ("Strip"%string, strip_norm_from l); ("StripAccents"%string, unit_from "StripAccents" CnStripAccents l);
       ("NFC"%string, unit_from "NFC" CnNFC l); ("NFD"%string, unit_from "NFD" CnNFD l); ("NFKC"%string, unit_from "NFKC" CnNFKC l); ("NFKD"%string, unit_from "NFKD" CnNFKD l);
       ("Sequence"%string, norm_seq_from l ks); ("Lowercase"%string, unit_from "Lowercase" CnLowercase l); ("Nmt"%string, unit_from "Nmt" CnNmt l);
       ("Precompiled"%string, expected (precompiled_from l)); ("Replace"%string, replace_from CnReplace l); ("Prepend"%string, prepend_from l);
       ("ByteLevel"%string, unit_from "ByteLevel" CnByteLevel l)]
      [bert_norm_from l; strip_norm_from l; unit_from "StripAccents" CnStripAccents l; unit_from "NFC" CnNFC l; unit_from "NFD" CnNFD l;
       unit_from "NFKC" CnNFKC l; unit_from "NFKD" CnNFKD l; norm_seq_from l ks; unit_from "Lowercase" CnLowercase l; unit_from "Nmt" CnNmt l;
       precompiled_from l; replace_from CnReplace l; prepend_from l; unit_from "ByteLevel" CnByteLevel l].
  Fixpoint norm_of_json (j : value) : result norm_config :=
    match j with
    | JObj l => norm_read l (kids "normalizers" norm_of_json l)
    | _ => Err EFile
    end.

  (** ** Pre-tokenizers *)
  (** Derived: bert.rs:9-11, delimiter.rs:6-11, digits.rs:6-13, punctuation.rs:11-20,
      sequence.rs:6-10, split.rs:27-59, whitespace.rs:10-12, 31-33,
      unicode_scripts/pre_tokenizer.rs:5-7, fixed_length.rs:7-22. *)
  Fixpoint pre_to_json (c : pre_config) : value :=
    match c with
    | CpBert => unit_to "BertPreTokenizer"
    | CpByteLevel aps trim use_regex => byte_level_to aps trim use_regex
    | CpDelimiter c => JObj [(key "type", JStr (key "CharDelimiterSplit")); (key "delimiter", JStr [c])]
    | CpMetaspace rep scheme sp => metaspace_to rep scheme sp
    | CpWhitespace => unit_to "Whitespace"
    | CpSequence l => JObj [(key "type", JStr (key "Sequence")); (key "pretokenizers", JArr (map pre_to_json l))]
    | CpSplit p b i => JObj [(key "type", JStr (key "Split")); (key "pattern", of_pattern p); (key "behavior", of_behavior b); (key "invert", JBool i)]
    | CpPunctuation b => JObj [(key "type", JStr (key "Punctuation")); (key "behavior", of_behavior b)]
    | CpWhitespaceSplit => unit_to "WhitespaceSplit"
    | CpDigits i => JObj [(key "type", JStr (key "Digits")); (key "individual_digits", JBool i)]
    | CpScripts => unit_to "UnicodeScripts"
    | CpFixed n => JObj [(key "type", JStr (key "FixedLength")); (key "length", of_nat n)]
    end.

  Definition delimiter_from (l : list (str * value)) : result pre_config :=
    typed "CharDelimiterSplit" l (let! c := need "delimiter" as_char l in Ok (CpDelimiter c)).
  Definition pre_seq_from (l : list (str * value)) (ks : list (result pre_config)) : result pre_config :=
    typed "Sequence" l (let! cs := nested "pretokenizers" l ks in Ok (CpSequence cs)).
  Definition split_from (l : list (str * value)) : result pre_config :=
    typed "Split" l
      (let! p := need "pattern" as_pattern l in
       let! b := need "behavior" as_behavior l in
       let! i := need "invert" as_bool l in
       let! _ := compiled p in
       Ok (CpSplit p b i)).
  Definition punctuation_from (l : list (str * value)) : result pre_config :=
    typed "Punctuation" l (let! b := need_or "behavior" as_behavior Isolated l in Ok (CpPunctuation b)).
  Definition digits_from (l : list (str * value)) : result pre_config :=
    typed "Digits" l (let! i := need "individual_digits" as_bool l in Ok (CpDigits i)).
  Definition fixed_from (l : list (str * value)) : result pre_config :=
    typed "FixedLength" l (let! n := need_or "length" as_nat 5 l in Ok (CpFixed n)).

  (** [Deserialize for PreTokenizerWrapper], pre_tokenizers/mod.rs:64-201. *)
  Definition pre_read (l : list (str * value)) (ks : list (result pre_config)) : result pre_config :=
    tagged_or l
      [("BertPreTokenizer"%string, unit_from "BertPreTokenizer" CpBert l); ("ByteLevel"%string, byte_level_from CpByteLevel l); ("Delimiter"%string, delimiter_from l);
       ("Metaspace"%string, metaspace_from CpMetaspace l); ("Whitespace"%string, unit_from "Whitespace" CpWhitespace l); ("Sequence"%string, pre_seq_from l ks);
       ("Split"%string, split_from l); ("Punctuation"%string, punctuation_from l); ("WhitespaceSplit"%string, unit_from "WhitespaceSplit" CpWhitespaceSplit l);
       ("Digits"%string, digits_from l); ("UnicodeScripts"%string, unit_from "UnicodeScripts" CpScripts l); ("FixedLength"%string, fixed_from l)]
      [unit_from "BertPreTokenizer" CpBert l; byte_level_from CpByteLevel l; delimiter_from l; metaspace_from CpMetaspace l; unit_from "Whitespace" CpWhitespace l;
       pre_seq_from l ks; split_from l; punctuation_from l; unit_from "WhitespaceSplit" CpWhitespaceSplit l; digits_from l; unit_from "UnicodeScripts" CpScripts l; fixed_from l].
  Fixpoint pre_of_json (j : value) : result pre_config :=
    match j with
    | JObj l => pre_read l (kids "pretokenizers" pre_of_json l)
    | _ => Err EFile
    end.

  (** ** Decoders *)
  (** Derived: bpe.rs:5-12, wordpiece.rs:5-16, ctc.rs:7-22, sequence.rs:6-10, fuse.rs:5-14,
      strip.rs:5-15, byte_fallback.rs:6-14. *)
  Fixpoint dec_to_json (c : dec_config) : value :=
    match c with
    | CdBpe s => JObj [(key "type", JStr (key "BPEDecoder")); (key "suffix", JStr s)]
    | CdByteLevel aps trim use_regex => byte_level_to aps trim use_regex
    | CdWordPiece p c => JObj [(key "type", JStr (key "WordPiece")); (key "prefix", JStr p); (key "cleanup", JBool c)]
    | CdMetaspace rep scheme sp => metaspace_to rep scheme sp
    | CdCtc p d c => JObj [(key "type", JStr (key "CTC")); (key "pad_token", JStr p); (key "word_delimiter_token", JStr d); (key "cleanup", JBool c)]
    | CdSequence l => JObj [(key "type", JStr (key "Sequence")); (key "decoders", JArr (map dec_to_json l))]
    | CdReplace p s => replace_to p s
    | CdFuse => unit_to "Fuse"
    | CdStrip c a b => JObj [(key "type", JStr (key "Strip")); (key "content", JStr [c]); (key "start", of_nat a); (key "stop", of_nat b)]
    | CdByteFallback => unit_to "ByteFallback"
    end.

  Definition bpe_dec_from (l : list (str * value)) : result dec_config :=
    let! s := need "suffix" as_str l in Ok (CdBpe s).
  Definition wordpiece_dec_from (l : list (str * value)) : result dec_config :=
    let! p := need "prefix" as_str l in
    let! c := need "cleanup" as_bool l in
    Ok (CdWordPiece p c).
  Definition ctc_from (l : list (str * value)) : result dec_config :=
    let! p := need "pad_token" as_str l in
    let! d := need "word_delimiter_token" as_str l in
    let! c := need "cleanup" as_bool l in
    Ok (CdCtc p d c).
  Definition dec_seq_from (l : list (str * value)) (ks : list (result dec_config)) : result dec_config :=
    typed "Sequence" l (let! cs := nested "decoders" l ks in Ok (CdSequence cs)).
  Definition strip_dec_from (l : list (str * value)) : result dec_config :=
    let! c := need "content" as_char l in
    let! a := need "start" as_nat l in
    let! b := need "stop" as_nat l in
    Ok (CdStrip c a b).

  (** [Deserialize for DecoderWrapper], decoders/mod.rs:42-150. *)
  Definition dec_read (l : list (str * value)) (ks : list (result dec_config)) : result dec_config :=
    tagged_or l
      [("BPEDecoder"%string, bpe_dec_from l); ("ByteLevel"%string, byte_level_from CdByteLevel l); ("WordPiece"%string, wordpiece_dec_from l);
       ("Metaspace"%string, metaspace_from CdMetaspace l); ("CTC"%string, ctc_from l); ("Sequence"%string, dec_seq_from l ks);
       ("Replace"%string, replace_from CdReplace l); ("Fuse"%string, unit_from "Fuse" CdFuse l); ("Strip"%string, strip_dec_from l);
       ("ByteFallback"%string, unit_from "ByteFallback" CdByteFallback l)]
      [bpe_dec_from l; byte_level_from CdByteLevel l; wordpiece_dec_from l; metaspace_from CdMetaspace l; ctc_from l; dec_seq_from l ks;
       replace_from CdReplace l; unit_from "Fuse" CdFuse l; strip_dec_from l; unit_from "ByteFallback" CdByteFallback l].
  Fixpoint dec_of_json (j : value) : result dec_config :=
    match j with
    | JObj l => dec_read l (kids "decoders" dec_of_json l)
    | _ => Err EFile
    end.

  (** ** Post-processors *)
  (** [(String, u32)]. *)
  Definition of_tok_id (t : tok_id) : value := JArr [JStr (fst t); JInt (snd t)].
  Definition as_tok_id (j : value) : result tok_id := as_pair as_str as_u32 j.
  (** [Piece], template.rs:94-99, and [Sequence], 67-73. *)
  Definition of_tseq (s : tseq) : value := JStr (key match s with SeqA => "A" | SeqB => "B" end).
  Definition as_tseq (j : value) : result tseq :=
    match j with
    | JStr s => if str_eqb s (key "A") then Ok SeqA else if str_eqb s (key "B") then Ok SeqB else Err EFile
    | _ => Err EFile
    end.
  Definition of_piece (p : piece) : value :=
    match p with
    | PSeq s t => JObj [(key "Sequence", JObj [(key "id", of_tseq s); (key "type_id", JInt t)])]
    | PSpecial n t => JObj [(key "SpecialToken", JObj [(key "id", JStr n); (key "type_id", JInt t)])]
    end.
  Definition as_piece (j : value) : result piece :=
    match j with
    | JObj [(k, JObj l)] =>
        if str_eqb k (key "Sequence") then let! s := need "id" as_tseq l in let! t := need "type_id" as_u32 l in Ok (PSeq s t)
        else if str_eqb k (key "SpecialToken") then let! n := need "id" as_str l in let! t := need "type_id" as_u32 l in Ok (PSpecial n t)
        else Err EFile
    | _ => Err EFile
    end.
  (** [SpecialToken]; its fields are read without the check of [SpecialToken::new]. *)
  Definition of_special_token (s : special_token) : value :=
    JObj [(key "id", JStr (st_id s)); (key "ids", JArr (map JInt (st_ids s))); (key "tokens", JArr (map JStr (st_tokens s)))].
  Definition as_special_token (j : value) : result special_token :=
    match j with
    | JObj l =>
        let! i := need "id" as_str l in
        let! is := need "ids" (as_vec as_u32) l in
        let! ts := need "tokens" (as_vec as_str) l in
        Ok (mkSpecialToken i is ts)
    | _ => Err EFile
    end.
  (** [Tokens], template.rs:288-296: written in the order of a [BTreeMap], read to a
      hash map. *)
  Context (by_key : list (str * special_token) -> list (str * special_token)).
  Definition of_specials (m : list (str * special_token)) : value := JObj (map (fun e => (fst e, of_special_token (snd e))) (by_key m)).
  Fixpoint into_specials (l : list (str * value)) (m : list (str * special_token)) : result (list (str * special_token)) :=
    match l with
    | [] => Ok m
    | (k, v) :: l' => let! s := as_special_token v in into_specials l' (aset str_eqb k s m)
    end.
  Definition as_specials_map (j : value) : result (list (str * special_token)) :=
    match j with JObj l => into_specials l [] | _ => Err EFile end.

  (** Derived: roberta.rs:7-14, bert.rs:6-11, template.rs:336-352, sequence.rs:6-10. *)
  Fixpoint proc_to_json (c : proc_config) : value :=
    match c with
    | CqRoberta sep cls trim aps => JObj [(key "type", JStr (key "RobertaProcessing")); (key "sep", of_tok_id sep); (key "cls", of_tok_id cls); (key "trim_offsets", JBool trim); (key "add_prefix_space", JBool aps)]
    | CqBert sep cls => JObj [(key "type", JStr (key "BertProcessing")); (key "sep", of_tok_id sep); (key "cls", of_tok_id cls)]
    | CqByteLevel aps trim use_regex => byte_level_to aps trim use_regex
    | CqTemplate t => JObj [(key "type", JStr (key "TemplateProcessing")); (key "single", JArr (map of_piece (tc_single t))); (key "pair", JArr (map of_piece (tc_pair t))); (key "special_tokens", of_specials (tc_special t))]
    | CqSequence l => JObj [(key "type", JStr (key "Sequence")); (key "processors", JArr (map proc_to_json l))]
    end.

  Definition roberta_from (l : list (str * value)) : result proc_config :=
    let! sep := need "sep" as_tok_id l in
    let! cls := need "cls" as_tok_id l in
    let! trim := need "trim_offsets" as_bool l in
    let! aps := need "add_prefix_space" as_bool l in
    Ok (CqRoberta sep cls trim aps).
  Definition bert_from (l : list (str * value)) : result proc_config :=
    let! sep := need "sep" as_tok_id l in
    let! cls := need "cls" as_tok_id l in
    Ok (CqBert sep cls).
  (** [TemplateProcessingDeserializer], template.rs:418-442. *)
  Definition template_from (l : list (str * value)) : result proc_config :=
    let! sg := need "single" (as_vec as_piece) l in
    let! pr := need "pair" (as_vec as_piece) l in
    let! sp := need "special_tokens" as_specials_map l in
    Ok (CqTemplate (mkTemplateConfig sg pr (count_added sg (Some (as_specials sp))) (count_added pr (Some (as_specials sp))) sp)).
  Definition proc_seq_from (l : list (str * value)) (ks : list (result proc_config)) : result proc_config :=
    typed "Sequence" l (let! cs := nested "processors" l ks in Ok (CqSequence cs)).

  (** [PostProcessorWrapper], processors/mod.rs:17-26: untagged. *)
  Definition proc_read (l : list (str * value)) (ks : list (result proc_config)) : result proc_config :=
    first_ok [roberta_from l; bert_from l; byte_level_from CqByteLevel l; template_from l; proc_seq_from l ks].
  Fixpoint proc_of_json (j : value) : result proc_config :=
    match j with
    | JObj l => proc_read l (kids "processors" proc_of_json l)
    | _ => Err EFile
    end.
End files.
