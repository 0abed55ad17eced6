(** Model of encodings as Python objects: their methods, their arguments and their
    pickles.
    Sources: /repo/bindings/python/src/encoding.rs,
    /repo/tokenizers/src/tokenizer/encoding.rs:9-31 (the derived serialization). *)
From Coq Require Import ZArith String Ascii DecimalString.
From Verif Require Import Base StrBytes AMap EncodingModel ModelFilesModel ComponentFilesModel VisualModel PyModelModel.

Section encodings.
  Context {W : Type}.
  (** The order in which a hash map of ranges is iterated once it was filled. *)
  Context (order : list (nat * (nat * nat)) -> list (nat * (nat * nat))).
  Notation "'result' T" := (res pm_error T) (at level 10).
  Notation value := (arg W).
  Notation jvalue := (json W).
  Notation "'fresult' T" := (res file_error T) (at level 10).

  (** ** Arguments *)
  (** [u32]. *)
  Definition arg_u32 (a : value) : result N :=
    match a with
    | AInt z => if Z.leb 0 z && Z.ltb z (2 ^ 32) then Ok (Z.to_N z) else Err PType
    | ABool b => Ok (if b then 1 else 0)%N
    | _ => Err PType
    end.
  Definition arg_nat (a : value) : result nat := let! n := arg_usize a in Ok (N.to_nat n).
  (** A side, encoding.rs:420-431 and 461-468. *)
  Definition arg_side (a : value) : result direction :=
    let! s := arg_str a in
    if str_eqb s (key "left") then Ok DLeft else if str_eqb s (key "right") then Ok DRight else Err PValue.
  (** An argument with a default, in the [signature] of a method. *)
  Definition arg_or {T} (read : value -> result T) (d : T) (a : option value) : result T :=
    match a with Some v => read v | None => Ok d end.

  (** ** [pad], encoding.rs:406-441 *)
  Record pad_args := mkPA { pa_side : direction; pa_id : N; pa_type : N; pa_token : str }.
  Definition pad_args0 : pad_args := mkPA DRight 0 0 (key "[PAD]").
  Definition pad_kwarg (c : pad_args) (kv : str * value) : result pad_args :=
    let '(mkPA d i t k) := c in
    let '(name, v) := kv in
    if str_eqb name (key "direction") then let! x := arg_side v in Ok (mkPA x i t k)
    else if str_eqb name (key "pad_id") then let! x := arg_u32 v in Ok (mkPA d x t k)
    else if str_eqb name (key "pad_type_id") then let! x := arg_u32 v in Ok (mkPA d i x k)
    else if str_eqb name (key "pad_token") then let! x := arg_str v in Ok (mkPA d i t x)
    else Ok c.
  Definition py_pad (length : value) (kw : list (str * value)) (e : encoding) : result encoding :=
    let! n := arg_nat length in
    let! c := each_kwarg pad_kwarg pad_args0 kw in
    Ok (pad n (pa_id c) (pa_type c) (pa_token c) (pa_side c) e).

  (** ** [truncate], encoding.rs:456-472.  The arguments are extracted in order; the
      text of the direction is looked at in the body. *)
  Definition py_truncate (max_length : value) (stride side : option value) (e : encoding) : result encoding :=
    let! m := arg_nat max_length in
    let! s := arg_or arg_nat 0 stride in
    let! d := arg_or arg_side DRight side in
    init (truncate e m s d).

  (** ** The lookups, encoding.rs:283-388 *)
  Definition seq_index (a : option value) : result nat := arg_or arg_nat 0 a.
  Definition py_word_to_tokens (e : encoding) (word : value) (s : option value) : result (option (nat * nat)) :=
    let! w := arg_u32 word in let! q := seq_index s in Ok (word_to_tokens e w q).
  Definition py_word_to_chars (e : encoding) (word : value) (s : option value) : result (option offsets_t) :=
    let! w := arg_u32 word in let! q := seq_index s in init (word_to_chars e w q).
  Definition py_token_to_sequence (e : encoding) (i : value) : result (option nat) :=
    let! n := arg_nat i in Ok (token_to_sequence e n).
  Definition py_token_to_chars (e : encoding) (i : value) : result (option offsets_t) :=
    let! n := arg_nat i in Ok (option_map snd (token_to_chars e n)).
  Definition py_token_to_word (e : encoding) (i : value) : result (option N) :=
    let! n := arg_nat i in Ok (option_map snd (token_to_word e n)).
  Definition py_char_to_token (e : encoding) (pos : value) (s : option value) : result (option nat) :=
    let! p := arg_nat pos in let! q := seq_index s in Ok (char_to_token e p q).
  Definition py_char_to_word (e : encoding) (pos : value) (s : option value) : result (option N) :=
    let! p := arg_nat pos in let! q := seq_index s in Ok (char_to_word e p q).

  (** ** The pickle: [#[derive(Serialize, Deserialize)]], tokenizer/encoding.rs:10-31 *)
  Definition of_u32s (l : list N) : jvalue := JArr (map JInt l).
  Definition of_word (w : option N) : jvalue := match w with Some n => JInt n | None => JNull end.
  Definition of_offsets (o : offsets_t) : jvalue := JArr [of_nat (fst o); of_nat (snd o)].
  (** [Range<usize>] (serde): a struct. *)
  Definition of_range (r : nat * nat) : jvalue := JObj [(key "start", of_nat (fst r)); (key "end", of_nat (snd r))].
  (** An integer key of a map is written as a string (serde_json). *)
  Definition of_ranges (m : list (nat * (nat * nat))) : jvalue :=
    JObj (map (fun kr => (decimal (N.of_nat (fst kr)), of_range (snd kr))) m).
  Fixpoint enc_to_json (e : encoding) : jvalue :=
    JObj [
      (key "ids", of_u32s (ids e));
      (key "type_ids", of_u32s (type_ids e));
      (key "tokens", JArr (map JStr (tokens e)));
      (key "words", JArr (map of_word (words e)));
      (key "offsets", JArr (map of_offsets (offsets e)));
      (key "special_tokens_mask", of_u32s (special_tokens_mask e));
      (key "attention_mask", of_u32s (attention_mask e));
      (key "overflowing", JArr (map enc_to_json (overflowing e)));
      (key "sequence_ranges", of_ranges (sequence_ranges e))].

  (** A key read as an integer (serde_json): only the decimal text of a [usize]. *)
  Definition read_key (s : str) : fresult nat :=
    match NilZero.uint_of_string (string_of_list_ascii (map ascii_of_N s)) with
    | Some u =>
        let n := N.of_uint u in
        if str_eqb (decimal n) s && N.ltb n (2 ^ 64) then Ok (N.to_nat n) else Err EFile
    | None => Err EFile
    end.
  (** A struct is also read from an array of its fields; no pickle has that form and
      it is not here.  [Range] admits no other field. *)
  Definition as_range (j : jvalue) : fresult (nat * nat) :=
    match j with
    | JObj l =>
        if forallb (fun kv => str_eqb (fst kv) (key "start") || str_eqb (fst kv) (key "end")) l then
          let! a := need "start" as_nat l in let! b := need "end" as_nat l in Ok (a, b)
        else Err EFile
    | _ => Err EFile
    end.
  Fixpoint into_ranges (l : list (str * jvalue)) (m : list (nat * (nat * nat))) : fresult (list (nat * (nat * nat))) :=
    match l with
    | [] => Ok m
    | (k, v) :: l' => let! s := read_key k in let! r := as_range v in into_ranges l' (ranges_insert s r m)
    end.
  Definition as_ranges (j : jvalue) : fresult (list (nat * (nat * nat))) :=
    match j with JObj l => let! m := into_ranges l [] in Ok (order m) | _ => Err EFile end.
  Fixpoint enc_of_json (fuel : nat) (j : jvalue) : fresult encoding :=
    match fuel, j with
    | S fuel', JObj l =>
        let! i := need "ids" (as_vec as_u32) l in
        let! ty := need "type_ids" (as_vec as_u32) l in
        let! tk := need "tokens" (as_vec as_str) l in
        let! w := need "words" (as_vec (as_option as_u32)) l in
        let! o := need "offsets" (as_vec (as_pair as_nat as_nat)) l in
        let! sm := need "special_tokens_mask" (as_vec as_u32) l in
        let! am := need "attention_mask" (as_vec as_u32) l in
        let! ov := need "overflowing" (as_vec (enc_of_json fuel')) l in
        let! ra := need "sequence_ranges" as_ranges l in
        Ok (mkEnc i ty tk w o sm am ov ra)
    | _, _ => Err EFile
    end.

  (** serde_json refuses to enter the 128th nested array or object
      ([remaining_depth], de.rs of serde_json). *)
  Definition recursion_limit : nat := 128.
  Fixpoint json_depth (j : jvalue) : nat :=
    match j with
    | JArr l => S (list_max (map json_depth l))
    | JObj l => S (list_max (map (fun kv => json_depth (snd kv)) l))
    | _ => 0
    end.
  (** [__getstate__] and [__setstate__], encoding.rs:51-72. *)
  Definition enc_get_state (e : encoding) : result jvalue := Ok (enc_to_json e).
  Definition enc_set_state (j : jvalue) : result encoding :=
    if json_depth j <? recursion_limit then init (enc_of_json recursion_limit j) else Err PInit.

  (** ** The objects of a program: a method changes its object, or raises and leaves
      it.  A panic of [truncate] leaves it too: on parallel arrays the only one is
      [assert!], before any change (tokenizer/encoding.rs:319). *)
  Inductive enc_call :=
  | CNew
  | CMerge (objects : list nat) (growing : option value)
  | CSequence (object : nat) (s : value)
  | CPad (object : nat) (length : value) (kw : list (str * value))
  | CTruncate (object : nat) (max_length : value) (stride side : option value)
  | COverflowing (object : nat)
  | CCopy (object : nat)
  | CSetState (object : nat) (j : jvalue).

  Definition update (objs : list encoding) (i : nat) (e : encoding) : list encoding :=
    firstn i objs ++ e :: skipn (S i) objs.
  Definition obj (objs : list encoding) (i : nat) : result encoding :=
    match nth_error objs i with Some e => Ok e | None => Err PType end.
  (** What a call makes of the objects; new objects come last.  [CMerge] is
      [Encoding.merge] (encoding.rs:97-106), [COverflowing] the attribute
      [overflowing] (encoding.rs:262-270), [CCopy] pickling and unpickling
      ([copy.copy]). *)
  Definition enc_effect (objs : list encoding) (c : enc_call) : result (list encoding) :=
    match c with
    | CNew => Ok (objs ++ [empty_enc])
    | CMerge l g =>
        let! es := map_res (obj objs) l in
        let! b := arg_or arg_bool true g in
        Ok (objs ++ [merge b es])
    | CSequence i s => let! e := obj objs i in let! n := arg_nat s in Ok (update objs i (set_sequence_id e n))
    | CPad i n kw => let! e := obj objs i in let! e' := py_pad n kw e in Ok (update objs i e')
    | CTruncate i m s d => let! e := obj objs i in let! e' := py_truncate m s d e in Ok (update objs i e')
    | COverflowing i => let! e := obj objs i in Ok (objs ++ overflowing e)
    | CCopy i => let! e := obj objs i in let! j := enc_get_state e in let! e' := enc_set_state j in Ok (objs ++ [e'])
    | CSetState i j => let! _ := obj objs i in let! e' := enc_set_state j in Ok (update objs i e')
    end.
  Definition enc_calls (objs : list encoding) (l : list enc_call) : list encoding :=
    fold_left (fun objs c => match enc_effect objs c with Ok objs' => objs' | _ => objs end) l objs.
End encodings.
