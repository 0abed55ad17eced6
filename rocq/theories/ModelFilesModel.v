(** Model of saving and loading the models.
    Sources: /repo/tokenizers/src/models/mod.rs, {bpe,wordlevel,wordpiece,unigram}/serialization.rs,
    and [save], [read_file] of bpe/model.rs, wordlevel/mod.rs, wordpiece/mod.rs, unigram/model.rs.
    JSON texts are their values: that serde_json writes a value and reads it back
    is trusted. *)
From Coq Require Import String Ascii.
From Verif Require Import Base StrBytes AMap EncodingModel BpeWordModel BpeModel WordPieceModel UnigramModel.

(** The text of a literal of the source. *)
Definition key (s : string) : str := map N_of_ascii (list_ascii_of_string s).

(** All the errors of serde_json, of the builders and [Error::BadMerges],
    [Error::BadVocabulary]. *)
Inductive file_error := EFile.

(** A JSON value ([serde_json::Value]) whose numbers with a fraction are of the
    type [W]; negative integers, written by no model, are not here. *)
Inductive json (W : Type) :=
| JNull | JBool (b : bool) | JInt (n : N) | JFloat (w : W) | JStr (s : str)
| JArr (l : list (json W)) | JObj (l : list (str * json W)).
Arguments JNull {W}.
Arguments JBool {W}.
Arguments JInt {W}.
Arguments JFloat {W}.
Arguments JStr {W}.
Arguments JArr {W}.
Arguments JObj {W}.

(** What is used of floating point numbers: [is_finite], the conversion from an
    integer, and a probability of each class of BpeModel ([f_class]: its class). *)
Record floats (W : Type) := mkFloats {
  f_finite : W -> bool; f_of_int : N -> W; f_prob : dropout_value -> W; f_class : W -> dropout_value }.
Arguments mkFloats {W}.
Arguments f_finite {W}.
Arguments f_of_int {W}.
Arguments f_prob {W}.
Arguments f_class {W}.

Section files.
  Context {W : Type} (A : arith W) (F : floats W).
  Notation value := (json W).
  Notation "'result' A" := (res file_error A) (at level 10).

  (** ** Reading a value as a type: serde's implementations *)
  Definition as_bool (j : value) : result bool := match j with JBool b => Ok b | _ => Err EFile end.
  Definition as_str (j : value) : result str := match j with JStr s => Ok s | _ => Err EFile end.
  Definition as_u32 (j : value) : result N := match j with JInt n => if N.ltb n (2 ^ 32) then Ok n else Err EFile | _ => Err EFile end.
  Definition as_usize (j : value) : result N := match j with JInt n => if N.ltb n (2 ^ 64) then Ok n else Err EFile | _ => Err EFile end.
  Definition as_float (j : value) : result W := match j with JFloat w => Ok w | JInt n => Ok (f_of_int F n) | _ => Err EFile end.
  Definition as_option {T} (read : value -> result T) (j : value) : result (option T) :=
    match j with JNull => Ok None | _ => let! x := read j in Ok (Some x) end.
  Definition as_vec {T} (read : value -> result T) (j : value) : result (list T) :=
    match j with JArr l => map_res read l | _ => Err EFile end.
  Definition as_pair {S T} (read1 : value -> result S) (read2 : value -> result T) (j : value) : result (S * T) :=
    match j with JArr [a; b] => let! x := read1 a in let! y := read2 b in Ok (x, y) | _ => Err EFile end.
  (** [AHashMap<String, u32>]. *)
  Fixpoint into_map (l : list (str * value)) (m : list (str * N)) : result (list (str * N)) :=
    match l with
    | [] => Ok m
    | (t, v) :: l' => let! i := as_u32 v in into_map l' (aset str_eqb t i m)
    end.
  Definition as_map (j : value) : result (list (str * N)) :=
    match j with JObj l => into_map l [] | _ => Err EFile end.

  (** A number with a fraction: [null] unless finite (serde_json). *)
  Definition of_float (w : W) : value := if f_finite F w then JFloat w else JNull.
  Definition of_option_str (o : option str) : value := match o with Some s => JStr s | None => JNull end.
  Definition of_dropout (d : dropout_value) : value := match d with DNone => JNull | _ => of_float (f_prob F d) end.

  (** ** [OrderedVocabIter], models/mod.rs:21-56 *)
  Definition max_key (vocab_r : list (N * str)) : option N :=
    fold_left (fun acc e => match acc with None => Some (fst e) | Some m => Some (N.max m (fst e)) end) vocab_r None.
  (** [0..n]. *)
  Definition range (n : N) : list N := map N.of_nat (seq 0 (N.to_nat n)).
  (** [*max + 1] overflows for [u32::MAX]. *)
  Definition ordered_vocab (vocab_r : list (N * str)) : result value :=
    match max_key vocab_r with
    | None => Ok (JObj [])
    | Some m =>
        if N.leb (2 ^ 32) (m + 1) then Panic
        else Ok (JObj (flat_map (fun i => match aget N.eqb i vocab_r with Some t => [(t, JInt i)] | None => [] end) (range (m + 1))))
    end.

  (** ** BPE *)
  (** [sort_unstable_by_key], an argument. *)
  Context (by_rank : list ((N * N) * (N * N)) -> list ((N * N) * (N * N))).

  (** The merges in order of rank, as texts: bpe/serialization.rs:26-35,
      bpe/model.rs:653-668; [vocab_r[&id]] can panic. *)
  Definition merge_texts (m : bpe) : result (list (str * str)) :=
    map_res (fun e : (N * N) * (N * N) =>
      let! a := of_option (b_token m (fst (fst e))) in
      let! b := of_option (b_token m (snd (fst e))) in Ok (a, b)) (by_rank (b_merges m)).

  (** [Serialize for BPE], bpe/serialization.rs:9-45. *)
  Definition bpe_to_json (m : bpe) : result value :=
    let! merges := merge_texts m in
    let! vocab := ordered_vocab (b_vocab_r m) in
    Ok (JObj [
      (key "type", JStr (key "BPE"));
      (key "dropout", of_dropout (b_dropout m));
      (key "unk_token", of_option_str (b_unk m));
      (key "continuing_subword_prefix", of_option_str (b_prefix m));
      (key "end_of_word_suffix", of_option_str (b_suffix m));
      (key "fuse_unk", JBool (b_fuse m));
      (key "byte_fallback", JBool (b_fallback m));
      (key "ignore_merges", JBool (b_ignore_merges m));
      (key "vocab", vocab);
      (key "merges", JArr (map (fun ab => JArr [JStr (fst ab); JStr (snd ab)]) merges))]).

  (** [str::split(' ')] (core library). *)
  Fixpoint split_spaces (cur s : str) : list str :=
    match s with
    | [] => [cur]
    | c :: s' => if N.eqb c 32 then cur :: split_spaces [] s' else split_spaces (cur ++ [c]) s'
    end.
  (** [str::starts_with] (core library). *)
  Fixpoint starts_with (p s : str) : bool :=
    match p, s with
    | [], _ => true
    | a :: p', b :: s' => N.eqb a b && starts_with p' s'
    | _ :: _, [] => false
    end.
  (** [convert_merges_to_hashmap], bpe/model.rs:366-384. *)
  Definition merge_line (line : str) : result (str * str) :=
    match split_spaces [] line with [a; b] => Ok (a, b) | _ => Err EFile end.
  Definition convert_merges (lines : list str) : result (list (str * str)) :=
    map_res merge_line (filter (fun l => negb (starts_with (key "#version") l)) lines).

  (** [enum MergeType], bpe/serialization.rs:84-89, untagged: pairs, or else lines. *)
  Inductive merge_type := MTuple (l : list (str * str)) | MLegacy (l : list str).
  Definition as_merge_type (j : value) : result merge_type :=
    match as_vec (as_pair as_str as_str) j with
    | Ok l => Ok (MTuple l)
    | _ => let! l := as_vec as_str j in Ok (MLegacy l)
    end.

  (** The builder, with the local variables of [visit_map]. *)
  Record bpe_fields := mkBf {
    bf_drop : dropout_value; bf_unk : option str; bf_pre : option str; bf_suf : option str;
    bf_fuse : bool; bf_fb : bool; bf_ign : bool; bf_voc : option (list (str * N)); bf_mer : option merge_type }.
  Definition bf0 : bpe_fields := mkBf DNone None None None false false false None None.
  Definition or_else {T} (o : option T) (d : T) : T := match o with Some x => x | None => d end.

  (** The body of the loop of [visit_map], bpe/serialization.rs:91-142. *)
  Definition bpe_field (st : bpe_fields) (kv : str * value) : result bpe_fields :=
    let '(mkBf d u p s fu fb ig vo me) := st in
    let '(k, v) := kv in
    if str_eqb k (key "dropout") then let! o := as_option as_float v in Ok (mkBf (match o with Some w => f_class F w | None => d end) u p s fu fb ig vo me)
    else if str_eqb k (key "unk_token") then let! o := as_option as_str v in Ok (mkBf d (match o with Some t => Some t | None => u end) p s fu fb ig vo me)
    else if str_eqb k (key "continuing_subword_prefix") then let! o := as_option as_str v in Ok (mkBf d u (match o with Some t => Some t | None => p end) s fu fb ig vo me)
    else if str_eqb k (key "end_of_word_suffix") then let! o := as_option as_str v in Ok (mkBf d u p (match o with Some t => Some t | None => s end) fu fb ig vo me)
    else if str_eqb k (key "fuse_unk") then let! o := as_option as_bool v in Ok (mkBf d u p s (or_else o fu) fb ig vo me)
    else if str_eqb k (key "byte_fallback") then let! o := as_option as_bool v in Ok (mkBf d u p s fu (or_else o fb) ig vo me)
    else if str_eqb k (key "ignore_merges") then let! o := as_option as_bool v in Ok (mkBf d u p s fu fb (or_else o ig) vo me)
    else if str_eqb k (key "vocab") then let! m := as_map v in Ok (mkBf d u p s fu fb ig (Some m) me)
    else if str_eqb k (key "merges") then let! m := as_merge_type v in Ok (mkBf d u p s fu fb ig vo (Some m))
    else if str_eqb k (key "type") then let! t := as_str v in if str_eqb t (key "BPE") then Ok st else Err EFile
    else Ok st.

  Fixpoint each_field {S} (f : S -> str * value -> result S) (st : S) (l : list (str * value)) : result S :=
    match l with
    | [] => Ok st
    | kv :: l' => let! st := f st kv in each_field f st l'
    end.

  (** [map_err(Error::custom)]. *)
  Definition custom {E T} (r : res E T) : result T := match r with Ok x => Ok x | Err _ => Err EFile | Panic => Panic end.

  (** [Deserialize for BPE], bpe/serialization.rs:47-158. *)
  Definition bpe_of_json (j : value) : result bpe :=
    match j with
    | JObj l =>
        let! st := each_field bpe_field bf0 l in
        match bf_voc st, bf_mer st with
        | Some vocab, Some merges =>
            let! merges := match merges with MTuple l => Ok l | MLegacy l => convert_merges l end in
            custom (bpe_build vocab merges (bf_drop st) (bf_unk st) (bf_pre st) (bf_suf st) (bf_fuse st) (bf_fb st) (bf_ign st))
        | _, _ => Err EFile
        end
    | _ => Err EFile
    end.

  (** ** WordLevel *)
  (** [Serialize for WordLevel], wordlevel/serialization.rs:9-22. *)
  Definition wl_to_json (m : wordlevel) : result value :=
    let! vocab := ordered_vocab (reverse_vocab (l_vocab m)) in
    Ok (JObj [(key "type", JStr (key "WordLevel")); (key "vocab", vocab); (key "unk_token", JStr (l_unk m))]).

  (** [visit_map], wordlevel/serialization.rs:46-81: a field still missing is [None]. *)
  Definition wl_field (st : option (list (str * N)) * option str) (kv : str * value) : result (option (list (str * N)) * option str) :=
    let '(vo, un) := st in
    let '(k, v) := kv in
    if str_eqb k (key "vocab") then let! m := as_map v in Ok (Some m, un)
    else if str_eqb k (key "unk_token") then let! t := as_str v in Ok (vo, Some t)
    else if str_eqb k (key "type") then let! t := as_str v in if str_eqb t (key "WordLevel") then Ok st else Err EFile
    else Ok st.
  Definition wl_of_json (j : value) : result wordlevel :=
    match j with
    | JObj l =>
        let! st := each_field wl_field (None, None) l in
        match st with
        | (Some vocab, Some unk) => Ok (mkWL vocab unk)
        | _ => Err EFile
        end
    | _ => Err EFile
    end.

  (** ** WordPiece *)
  (** [Serialize for WordPiece], wordpiece/serialization.rs:9-28. *)
  Definition wp_to_json (m : wordpiece) : result value :=
    let! vocab := ordered_vocab (reverse_vocab (w_vocab m)) in
    Ok (JObj [
      (key "type", JStr (key "WordPiece"));
      (key "unk_token", JStr (w_unk m));
      (key "continuing_subword_prefix", JStr (w_prefix m));
      (key "max_input_chars_per_word", JInt (N.of_nat (w_max m)));
      (key "vocab", vocab)]).

  (** [visit_map], wordpiece/serialization.rs:57-107. *)
  Record wp_fields := mkWf { wf_unk : option str; wf_pre : option str; wf_max : option N; wf_voc : option (list (str * N)) }.
  Definition wp_field (st : wp_fields) (kv : str * value) : result wp_fields :=
    let '(mkWf u p x vo) := st in
    let '(k, v) := kv in
    if str_eqb k (key "unk_token") then let! t := as_str v in Ok (mkWf (Some t) p x vo)
    else if str_eqb k (key "continuing_subword_prefix") then let! t := as_str v in Ok (mkWf u (Some t) x vo)
    else if str_eqb k (key "max_input_chars_per_word") then let! n := as_usize v in Ok (mkWf u p (Some n) vo)
    else if str_eqb k (key "vocab") then let! m := as_map v in Ok (mkWf u p x (Some m))
    else if str_eqb k (key "type") then let! t := as_str v in if str_eqb t (key "WordPiece") then Ok st else Err EFile
    else Ok st.
  Definition wp_of_json (j : value) : result wordpiece :=
    match j with
    | JObj l =>
        let! st := each_field wp_field (mkWf None None None None) l in
        match st with
        | mkWf (Some u) (Some p) (Some x) (Some vocab) => Ok (mkWP vocab u p (N.to_nat x))
        | _ => Err EFile
        end
    | _ => Err EFile
    end.

  (** ** Unigram *)
  (** [Serialize for Unigram], unigram/serialization.rs:8-22. *)
  Definition uni_to_json (m : @unigram W) : value :=
    JObj [
      (key "type", JStr (key "Unigram"));
      (key "unk_id", match u_unk m with Some k => JInt k | None => JNull end);
      (key "vocab", JArr (map (fun e => JArr [JStr (fst e); of_float (snd e)]) (u_vocab m)));
      (key "byte_fallback", JBool (u_fallback m))].

  (** [visit_map], unigram/serialization.rs:44-79. *)
  Record uni_fields := mkUf { uf_unk : option N; uf_fb : bool; uf_voc : option (list (str * W)) }.
  Definition uni_field (st : uni_fields) (kv : str * value) : result uni_fields :=
    let '(mkUf u fb vo) := st in
    let '(k, v) := kv in
    if str_eqb k (key "unk_id") then let! o := as_option as_usize v in Ok (mkUf o fb vo)
    else if str_eqb k (key "byte_fallback") then let! b := as_bool v in Ok (mkUf u b vo)
    else if str_eqb k (key "vocab") then let! l := as_vec (as_pair as_str as_float) v in Ok (mkUf u fb (Some l))
    else if str_eqb k (key "type") then let! t := as_str v in if str_eqb t (key "Unigram") then Ok st else Err EFile
    else Ok st.
  Definition uni_of_json (j : value) : result (@unigram W) :=
    match j with
    | JObj l =>
        let! st := each_field uni_field (mkUf None false None) l in
        match uf_voc st with
        | Some vocab => custom (uni_from A vocab (uf_unk st) (uf_fb st))
        | None => Err EFile
        end
    | _ => Err EFile
    end.

  (** ** [ModelWrapper], models/mod.rs:58-139 *)
  Inductive model :=
  | MBpe (m : bpe) | MWordPiece (m : wordpiece) | MWordLevel (m : wordlevel) | MUnigram (m : @unigram W).

  (** [Serialize], untagged. *)
  Definition model_to_json (m : model) : result value :=
    match m with
    | MBpe m => bpe_to_json m
    | MWordPiece m => wp_to_json m
    | MWordLevel m => wl_to_json m
    | MUnigram m => Ok (uni_to_json m)
    end.

  Definition load_bpe (j : value) : result model := let! m := bpe_of_json j in Ok (MBpe m).
  Definition load_wordpiece (j : value) : result model := let! m := wp_of_json j in Ok (MWordPiece m).
  Definition load_wordlevel (j : value) : result model := let! m := wl_of_json j in Ok (MWordLevel m).
  Definition load_unigram (j : value) : result model := let! m := uni_of_json j in Ok (MUnigram m).

  (** An untagged enum: the first variant without an error. *)
  Definition or_try {T} (a b : result T) : result T := match a with Err _ => b | _ => a end.
  Definition untagged (j : value) : result model :=
    or_try (load_bpe j) (or_try (load_wordpiece j) (or_try (load_wordlevel j) (load_unigram j))).

  (** [Tagged]: one field "type" with the name of a variant, and the other fields.
      That they pass through a [serde_json::Value] (which may sort them) is not
      modelled: the theorems are about any order of the fields. *)
  Definition variant (s : str) : option (value -> result model) :=
    if str_eqb s (key "BPE") then Some load_bpe
    else if str_eqb s (key "WordPiece") then Some load_wordpiece
    else if str_eqb s (key "WordLevel") then Some load_wordlevel
    else if str_eqb s (key "Unigram") then Some load_unigram
    else None.
  Definition tag (l : list (str * value)) : option (value -> result model) :=
    match filter (fun kv => str_eqb (fst kv) (key "type")) l with
    | [(_, JStr s)] => variant s
    | _ => None
    end.
  Definition model_of_json (j : value) : result model :=
    match j with
    | JObj l =>
        match tag l with
        | Some load => load (JObj (filter (fun kv => negb (str_eqb (fst kv) (key "type"))) l))
        | None => untagged j
        end
    | _ => untagged j
    end.

  (** ** Files *)
  (** [BufRead::lines] (standard library) on a text: [cur] is the line being read. *)
  Definition chomp (line : str) : str := match rev line with 13%N :: r => rev r | _ => line end.
  Fixpoint lines (cur text : str) : list str :=
    match text with
    | [] => if is_nil cur then [] else [cur]
    | c :: text' => if N.eqb c 10 then chomp cur :: lines [] text' else lines (cur ++ [c]) text'
    end.

  (** The object of [vocab.json]: [BPE::read_file], bpe/model.rs:410-427;
      [WordLevel::read_file], wordlevel/mod.rs:114-134.  [as u32] truncates, values
      that are no numbers are skipped. *)
  Fixpoint read_numbers (l : list (str * value)) (m : list (str * N)) : result (list (str * N)) :=
    match l with
    | [] => Ok m
    | (t, v) :: l' =>
        match v with
        | JInt i => read_numbers l' (aset str_eqb t (i mod 2 ^ 32)%N m)
        | JFloat _ => Err EFile
        | _ => read_numbers l' m
        end
    end.
  Definition read_vocab (j : value) : result (list (str * N)) :=
    match j with JObj l => read_numbers l [] | _ => Err EFile end.

  (** [BPE::save], bpe/model.rs:632-671: the value of [vocab.json] and the text of
      [merges.txt]. *)
  Definition bpe_save (m : bpe) : result (value * str) :=
    let! vocab := ordered_vocab (b_vocab_r m) in
    let! merges := merge_texts m in
    Ok (vocab, key "#version: 0.2" ++ [10%N] ++ flat_map (fun ab => fst ab ++ [32%N] ++ snd ab ++ [10%N]) merges).
  (** [BPE::from_file(vocab, merges)...build()], bpe/model.rs:403-439, 207-287. *)
  Definition bpe_from_file (vocab : value) (text : str) (d : dropout_value) (unk prefix suffix : option str) (fuse fallback ignore : bool) : result bpe :=
    match d with
    | DOutside => Err EFile
    | _ =>
        let! v := read_vocab vocab in
        let! merges := convert_merges (lines [] text) in
        custom (bpe_build v merges d unk prefix suffix fuse fallback ignore)
    end.

  (** [WordLevel::save], wordlevel/mod.rs:190-209; [from_file], 137-140. *)
  Definition wl_save (m : wordlevel) : result value := ordered_vocab (reverse_vocab (l_vocab m)).
  Definition wl_from_file (vocab : value) (unk : str) : result wordlevel :=
    let! v := read_vocab vocab in Ok (mkWL v unk).

  (** [sort_unstable_by_key] and [char::is_whitespace], arguments. *)
  Context (by_id : list (str * N) -> list (str * N)) (is_ws : char -> bool).

  (** [str::trim_end] (core library). *)
  Fixpoint drop_ws (s : str) : str := match s with c :: s' => if is_ws c then drop_ws s' else s | [] => [] end.
  Definition trim_end (s : str) : str := rev (drop_ws (rev s)).

  (** [WordPiece::save], wordpiece/mod.rs:294-314: the text of [vocab.txt]. *)
  Definition wp_save (m : wordpiece) : str := flat_map (fun e : str * N => fst e ++ [10%N]) (by_id (w_vocab m)).
  (** [WordPiece::read_file], wordpiece/mod.rs:165-176. *)
  Fixpoint number_lines (i : nat) (l : list str) (m : list (str * N)) : list (str * N) :=
    match l with
    | [] => m
    | line :: l' => number_lines (i + 1) l' (aset str_eqb (trim_end line) (N.of_nat i mod 2 ^ 32)%N m)
    end.
  Definition wp_read (text : str) : list (str * N) := number_lines 0 (lines [] text) [].
End files.
