(** Model of the normalizers.
    Source: /repo/tokenizers/src/normalizers/{bert,strip,unicode,utils,replace,
    prepend,precompiled,byte_level,mod}.rs. *)
From Coq Require Import ZArith.
From Verif Require Import Base StrBytes NormModel PatternModel ByteLevelModel DecodersModel.

(** Unicode data used by the normalizers, all external crates: the four normal
    forms of [unicode_normalization_alignments] (each character with its change),
    [char::to_lowercase], [char::is_whitespace], [is_other] and
    [is_mark_nonspacing] of [unicode_categories], [is_combining_mark]. *)
Record tables := mkTables {
  u_nfd : str -> list (char * Z);
  u_nfkd : str -> list (char * Z);
  u_nfc : str -> list (char * Z);
  u_nfkc : str -> list (char * Z);
  u_lower : char -> str;
  u_white : char -> bool;
  u_other : char -> bool;
  u_nonspacing : char -> bool;
  u_combining : char -> bool
}.

(** [NormalizerWrapper], normalizers/mod.rs:27-43.  [NReplace] holds the engine
    built from the pattern, replace.rs:67-75; [NPrecompiled] holds the chart lookup
    [Precompiled::transform] (crate spm_precompiled) and the grapheme
    segmentation of [unicode_segmentation]. *)
Inductive normalizer :=
| NBert (clean_text handle_chinese_chars : bool) (strip_accents : option bool) (lowercase : bool)
| NStrip (strip_left strip_right : bool)
| NStripAccents
| NNFC
| NNFD
| NNFKC
| NNFKD
| NSequence (l : list normalizer)
| NLowercase
| NNmt
| NPrecompiled (chart : str -> option str) (graphemes : str -> list str)
| NReplace (find_iter : str -> list offsets_t) (content : str)
| NPrepend (prepend : str)
| NByteLevel.

Definition between (a b c : N) : bool := (a <=? c)%N && (c <=? b)%N.

Section with_tables.
  Context (T : tables).

  (** bert.rs:7-13. *)
  Definition bert_whitespace (c : char) : bool :=
    if N.eqb c 9 || N.eqb c 10 || N.eqb c 13 then true else u_white T c.

  (** bert.rs:16-25. *)
  Definition bert_control (c : char) : bool :=
    if N.eqb c 9 || N.eqb c 10 || N.eqb c 13 then false else u_other T c.

  (** bert.rs:36-48. *)
  Definition is_chinese_char (c : char) : bool :=
    between 0x4E00 0x9FFF c || between 0x3400 0x4DBF c || between 0x20000 0x2A6DF c
    || between 0x2A700 0x2B73F c || between 0x2B740 0x2B81F c || between 0x2B920 0x2CEAF c
    || between 0xF900 0xFAFF c || between 0x2F800 0x2FA1F c.

  (** bert.rs:92-96. *)
  Definition do_clean_text (ns : nstring) : res unit nstring :=
    let! ns := n_filter ns (fun c => negb (N.eqb c 0 || N.eqb c 0xFFFD || bert_control c)) in
    n_map ns (fun c => if bert_whitespace c then 32%N else c).

  (** bert.rs:98-108. *)
  Definition do_handle_chinese_chars (ns : nstring) : res unit nstring :=
    transform ns
      (flat_map (fun c => if is_chinese_char c then [(32%N, 0%Z); (c, 1%Z); (32%N, 1%Z)] else [(c, 0%Z)])
                (n_normalized ns)) 0.

  (** [nfd], [nfkd], [nfc], [nfkc], normalizer.rs:447-470. *)
  Definition n_form (form : str -> list (char * Z)) (ns : nstring) : res unit nstring :=
    transform ns (form (n_normalized ns)) 0.

  (** bert.rs:110-112. *)
  Definition do_strip_accents (ns : nstring) : res unit nstring :=
    let! ns := n_form (u_nfd T) ns in
    n_filter ns (fun c => negb (u_nonspacing T c)).

  (** bert.rs:114-116, normalizer.rs:546-556. *)
  Definition do_lowercase (ns : nstring) : res unit nstring := n_case ns (u_lower T).

  (** [BertNormalizer::normalize], bert.rs:120-136. *)
  Definition bert_normalize (clean cjk : bool) (strip : option bool) (lowercase : bool) (ns : nstring)
    : res unit nstring :=
    let! ns := if clean then do_clean_text ns else Ok ns in
    let! ns := if cjk then do_handle_chinese_chars ns else Ok ns in
    let strip_accents := match strip with Some b => b | None => lowercase end in
    let! ns := if strip_accents then do_strip_accents ns else Ok ns in
    if lowercase then do_lowercase ns else Ok ns.

  (** [Strip::normalize], strip.rs:23-40. *)
  Definition strip_normalize (left right : bool) (ns : nstring) : res unit nstring :=
    if left && right then n_lrstrip ns (u_white T) true true
    else
      let! ns := if left then n_lrstrip ns (u_white T) true false else Ok ns in
      if right then n_lrstrip ns (u_white T) false true else Ok ns.

  (** [StripAccents::normalize], strip.rs:50-56. *)
  Definition strip_accents_normalize (ns : nstring) : res unit nstring :=
    n_filter ns (fun c => negb (u_combining T c)).

  (** [do_nmt], unicode.rs:44-74. *)
  Definition nmt_removed (c : char) : bool :=
    between 0x0001 0x0008 c || N.eqb c 0x000B || between 0x000E 0x001F c
    || N.eqb c 0x007F || N.eqb c 0x008F || N.eqb c 0x009F.
  Definition nmt_space (c : char) : bool :=
    N.eqb c 0x0009 || N.eqb c 0x000A || N.eqb c 0x000C || N.eqb c 0x000D || N.eqb c 0x1680
    || between 0x200B 0x200F c || N.eqb c 0x2028 || N.eqb c 0x2029 || N.eqb c 0x2581
    || N.eqb c 0xFEFF || N.eqb c 0xFFFD.
  Definition do_nmt (ns : nstring) : res unit nstring :=
    let! ns := n_filter ns (fun c => negb (nmt_removed c)) in
    n_map ns (fun c => if nmt_space c then 32%N else c).

  (** [replace] of precompiled.rs:6-32; the vector of transformations is kept in
      reverse (its last element first). *)
  Fixpoint set_first (k : nat) (l : list (char * Z)) : list (char * Z) :=
    match k, l with
    | S k', (c, _) :: l' => (c, 1%Z) :: set_first k' l'
    | _, _ => l
    end.
  Definition pre_replace (racc : list (char * Z)) (old_part new_part : str) : list (char * Z) :=
    let diff := (Z.of_nat (length new_part) - Z.of_nat (length old_part))%Z in
    let racc := rev (map (fun c => (c, 0%Z)) new_part) ++ racc in
    if (0 <? diff)%Z then set_first (Z.to_nat diff) racc
    else if (diff <? 0)%Z then
      match racc with
      | (c, cs) :: l => (c, (cs + diff)%Z) :: l
      | [] => []
      end
    else racc.

  (** precompiled.rs:53-62: the characters of a grapheme, one by one. *)
  Fixpoint pre_chars (chart : str -> option str) (g : str) (modified : bool) (racc : list (char * Z))
    : bool * list (char * Z) :=
    match g with
    | [] => (modified, racc)
    | c :: g' =>
        match chart [c] with
        | Some norm => pre_chars chart g' true (pre_replace racc [c] norm)
        | None => pre_chars chart g' modified ((c, 0%Z) :: racc)
        end
    end.

  (** precompiled.rs:45-63. *)
  Fixpoint pre_graphemes (chart : str -> option str) (gs : list str) (modified : bool) (racc : list (char * Z))
    : bool * list (char * Z) :=
    match gs with
    | [] => (modified, racc)
    | g :: gs' =>
        match (if blen g <? 6 then chart g else None) with
        | Some norm => pre_graphemes chart gs' true (pre_replace racc g norm)
        | None => let '(m, racc) := pre_chars chart g modified racc in pre_graphemes chart gs' m racc
        end
    end.

  (** [Precompiled::normalize], precompiled.rs:34-69. *)
  Definition precompiled_normalize (chart : str -> option str) (graphemes : str -> list str) (ns : nstring)
    : res unit nstring :=
    let '(modified, racc) := pre_graphemes chart (graphemes (n_normalized ns)) false [] in
    if modified then transform ns (rev racc) 0 else Ok ns.

  (** [Replace::normalize], replace.rs:81-85. *)
  Definition replace_normalize (find_iter : str -> list offsets_t) (content : str) (ns : nstring)
    : res unit nstring :=
    n_replace ns (regex_find_matches find_iter (n_normalized ns)) content.

  (** [Prepend::normalize], prepend.rs:18-25. *)
  Definition prepend_normalize (s : str) (ns : nstring) : res unit nstring :=
    if is_nil (n_normalized ns) then Ok ns else n_prepend ns s.

  (** [ByteLevel::normalize], byte_level.rs:30-49; the transformation is the one
      of the pre-tokenizer of the same name. *)
  Definition byte_level_normalize (ns : nstring) : res unit nstring :=
    if is_nil (n_normalized ns) then Ok ns else byte_level_norm ns.

  (** [NormalizerWrapper::normalize], normalizers/mod.rs:184-203, and
      [Sequence::normalize], utils.rs:42-49. *)
  Fixpoint normalize (n : normalizer) (ns : nstring) {struct n} : res unit nstring :=
    match n with
    | NBert clean cjk strip lowercase => bert_normalize clean cjk strip lowercase ns
    | NStrip l r => strip_normalize l r ns
    | NStripAccents => strip_accents_normalize ns
    | NNFC => n_form (u_nfc T) ns
    | NNFD => n_form (u_nfd T) ns
    | NNFKC => n_form (u_nfkc T) ns
    | NNFKD => n_form (u_nfkd T) ns
    | NSequence l =>
        (fix go (l : list normalizer) (ns : nstring) : res unit nstring :=
           match l with
           | [] => Ok ns
           | n :: l' => let! ns := normalize n ns in go l' ns
           end) l ns
    | NLowercase => do_lowercase ns
    | NNmt => do_nmt ns
    | NPrecompiled chart graphemes => precompiled_normalize chart graphemes ns
    | NReplace find_iter content => replace_normalize find_iter content ns
    | NPrepend s => prepend_normalize s ns
    | NByteLevel => byte_level_normalize ns
    end.
End with_tables.
