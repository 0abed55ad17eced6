(** Model of the models as Python objects: their constructors, their attributes and
    their pickles.
    Sources: /repo/bindings/python/src/models.rs,
    /repo/tokenizers/src/models/bpe/model.rs:93-295, wordpiece/mod.rs:29-117,
    wordlevel/mod.rs:26-97, unigram/model.rs:90-151.
    A dropout is known by its class, as in BpeModel. *)
From Coq Require Import ZArith String.
From Verif Require Import Base StrBytes AMap EncodingModel BpeWordModel BpeModel WordPieceModel UnigramModel CacheModel ModelFilesModel.

(** A Python object given as an argument; [AObject] is any other one. *)
Inductive arg (W : Type) :=
| ANone | ABool (b : bool) | AInt (z : Z) | AFloat (w : W) | AStr (s : str) | AObject.
Arguments ANone {W}.
Arguments ABool {W}.
Arguments AInt {W}.
Arguments AFloat {W}.
Arguments AStr {W}.
Arguments AObject {W}.

(** A conversion of PyO3 that fails ([TypeError], [OverflowError]), [ValueError],
    and [Exception]. *)
Inductive pm_error := PType | PValue | PInit.

(** [PyVocab] and [PyMerges], models.rs:361-371. *)
Inductive pm_vocab := VDict (l : list (str * N)) | VFile (f : str).
Inductive pm_merges := GList (l : list (str * str)) | GFile (f : str).

Section models.
  Context {W : Type} (A : arith W).
  (** The class of a number, and an integer as a number ([f32]). *)
  Context (class : W -> dropout_value) (of_int : Z -> W).
  (** [BPE::read_file], [WordPiece::read_file] and [WordLevel::read_file] on the
      files as they are (see ModelFilesModel). *)
  Context (read_bpe : str -> str -> res file_error (list (str * N) * list (str * str))).
  Context (read_wordpiece read_wordlevel : str -> res file_error (list (str * N))).
  Notation "'result' T" := (res pm_error T) (at level 10).
  Notation value := (arg W).

  (** ** [value.extract()] of PyO3, by the type expected *)
  (** [usize]: a Python bool is an int. *)
  Definition arg_usize (a : value) : result N :=
    match a with
    | AInt z => if Z.leb 0 z && Z.ltb z (2 ^ 64) then Ok (Z.to_N z) else Err PType
    | ABool b => Ok (if b then 1 else 0)%N
    | _ => Err PType
    end.
  Definition arg_str (a : value) : result str := match a with AStr s => Ok s | _ => Err PType end.
  Definition arg_bool (a : value) : result bool := match a with ABool b => Ok b | _ => Err PType end.
  Definition arg_f32 (a : value) : result dropout_value :=
    match a with
    | AFloat w => Ok (class w)
    | AInt z => Ok (class (of_int z))
    | ABool b => Ok (class (of_int (if b then 1 else 0)))
    | _ => Err PType
    end.
  Definition arg_option {T} (read : value -> result T) (a : value) : result (option T) :=
    match a with ANone => Ok None | _ => let! x := read a in Ok (Some x) end.

  (** The exceptions of [map_err]. *)
  Definition init {E T} (r : res E T) : result T := match r with Ok x => Ok x | Err _ => Err PInit | Panic => Panic end.

  (** ** BPE *)
  (** [Config] of the builder, bpe/model.rs:93-105. *)
  Record bpe_config := mkBC {
    c_files : option (str * str); c_vocab : list (str * N); c_merges : list (str * str); c_cache : N;
    c_dropout : dropout_value; c_unk : option str; c_prefix : option str; c_suffix : option str;
    c_fuse : bool; c_fallback : bool; c_ignore : bool }.
  (** [DEFAULT_CACHE_CAPACITY], cache.rs:7. *)
  Definition default_capacity : N := 10000.
  (** [Default for BpeBuilder], bpe/model.rs:112-130. *)
  Definition bpe_config0 : bpe_config := mkBC None [] [] default_capacity DNone None None None false false false.

  (** One keyword argument, models.rs:302-323. *)
  Definition bpe_kwarg (c : bpe_config) (kv : str * value) : result bpe_config :=
    let '(mkBC fi vo me ca d u p s fu fb ig) := c in
    let '(k, v) := kv in
    if str_eqb k (key "cache_capacity") then let! n := arg_usize v in Ok (mkBC fi vo me n d u p s fu fb ig)
    else if str_eqb k (key "dropout") then
      let! o := arg_option arg_f32 v in
      match o with Some d' => Ok (mkBC fi vo me ca d' u p s fu fb ig) | None => Ok c end
    else if str_eqb k (key "unk_token") then
      let! o := arg_option arg_str v in
      match o with Some t => Ok (mkBC fi vo me ca d (Some t) p s fu fb ig) | None => Ok c end
    else if str_eqb k (key "continuing_subword_prefix") then let! t := arg_str v in Ok (mkBC fi vo me ca d u (Some t) s fu fb ig)
    else if str_eqb k (key "end_of_word_suffix") then let! t := arg_str v in Ok (mkBC fi vo me ca d u p (Some t) fu fb ig)
    else if str_eqb k (key "fuse_unk") then let! b := arg_bool v in Ok (mkBC fi vo me ca d u p s b fb ig)
    else if str_eqb k (key "byte_fallback") then let! b := arg_bool v in Ok (mkBC fi vo me ca d u p s fu b ig)
    else if str_eqb k (key "ignore_merges") then let! b := arg_bool v in Ok (mkBC fi vo me ca d u p s fu fb b)
    else Ok c.

  Fixpoint each_kwarg {C} (one : C -> str * value -> result C) (c : C) (kw : list (str * value)) : result C :=
    match kw with
    | [] => Ok c
    | kv :: kw' => let! c' := one c kv in each_kwarg one c' kw'
    end.

  (** [BpeBuilder::build], bpe/model.rs:213-295: the model and the capacity of its cache. *)
  Definition bpe_config_build (c : bpe_config) : result (bpe * N) :=
    match c_dropout c with
    | DOutside => Err PInit
    | _ =>
        let! (vo, me) := match c_files c with Some (f, g) => init (read_bpe f g) | None => Ok (c_vocab c, c_merges c) end in
        let! m := init (bpe_build vo me (c_dropout c) (c_unk c) (c_prefix c) (c_suffix c) (c_fuse c) (c_fallback c) (c_ignore c)) in
        Ok (m, c_cache c)
    end.

  (** [PyBPE::new], models.rs:451-487. *)
  Definition bpe_new (vocab : option pm_vocab) (merges : option pm_merges) (kw : list (str * value)) : result (bpe * N) :=
    let! c := match vocab, merges with
              | None, None => Ok bpe_config0
              | Some (VDict vo), Some (GList me) => Ok (mkBC None vo me default_capacity DNone None None None false false false)
              | Some (VFile f), Some (GFile g) => Ok (mkBC (Some (f, g)) [] [] default_capacity DNone None None None false false false)
              | _, _ => Err PValue
              end in
    let! c' := each_kwarg bpe_kwarg c kw in
    bpe_config_build c'.

  (** [PyBPE::from_file], models.rs:537-560. *)
  Definition bpe_from_file (f g : str) (kw : list (str * value)) : result (bpe * N) :=
    let! (vo, me) := init (read_bpe f g) in
    bpe_new (Some (VDict vo)) (Some (GList me)) kw.

  (** An assignment to an attribute, models.rs:351-360 and 375-450. *)
  Inductive bpe_assign :=
  | SetDropout (d : dropout_value) | SetUnk (o : option str) | SetPrefix (o : option str) | SetSuffix (o : option str)
  | SetFuse (b : bool) | SetFallback (b : bool) | SetIgnore (b : bool).
  Definition assign_bpe (m : bpe) (a : bpe_assign) : bpe :=
    let '(mkBpe vo vr me d u p s fu fb ig) := m in
    match a with
    | SetDropout d' => mkBpe vo vr me d' u p s fu fb ig
    | SetUnk o => mkBpe vo vr me d o p s fu fb ig
    | SetPrefix o => mkBpe vo vr me d u o s fu fb ig
    | SetSuffix o => mkBpe vo vr me d u p o fu fb ig
    | SetFuse b => mkBpe vo vr me d u p s b fb ig
    | SetFallback b => mkBpe vo vr me d u p s fu b ig
    | SetIgnore b => mkBpe vo vr me d u p s fu fb b
    end.

  (** What is done with one object: an attribute is assigned, the cache cleared or
      resized (models.rs:562-584), a sequence tokenized on some thread. *)
  Inductive bpe_use := UAssign (a : bpe_assign) | UClear | UResize (n : N) | UTokenize (t : nat) (s : str) (draws : nat -> bool).

  (** An assignment takes the write lock: no call is in progress. *)
  Definition use_op (m : bpe) (u : bpe_use) : op :=
    match u with
    | UAssign (SetDropout d) => OSetPlain 0 d (b_ignore_merges m)
    | UAssign (SetIgnore i) => OSetPlain 0 (b_dropout m) i
    | UAssign a => OSet 0 (assign_bpe m a)
    | UClear => OClear 0
    | UResize n => OResize 0 (N.to_nat n)
    | UTokenize t s draws => OStart t 0 s draws
    end.

  (** The uses one after the other on the only model of a world, with what the
      calls return. *)
  Fixpoint use_all (pop : list merge -> option (merge * list merge)) (st : world) (l : list bpe_use) : option (list (res bpe_error (list token))) :=
    match l with
    | [] => Some []
    | u :: l' =>
        match nth_error (g_insts st) 0 with
        | None => None
        | Some i =>
            match step pop st (use_op (i_model i) u) with
            | None => None
            | Some (st1, Some out) => option_map (cons (o_tokens out)) (use_all pop st1 l')
            | Some (st1, None) =>
                match u with
                | UTokenize t _ _ =>
                    match step pop st1 (OFinish t) with
                    | Some (st2, Some out) => option_map (cons (o_tokens out)) (use_all pop st2 l')
                    | _ => None
                    end
                | _ => use_all pop st1 l'
                end
            end
        end
    end.

  (** A fresh object and its uses. *)
  Definition use_new (pop : list merge -> option (merge * list merge)) (mc : bpe * N) (l : list bpe_use) : option (list (res bpe_error (list token))) :=
    match step pop world0 (OBuild (fst mc) (N.to_nat (snd mc))) with
    | Some (st, _) => use_all pop st l
    | None => None
    end.

  (** ** WordPiece *)
  Record wp_config := mkWC { d_file : option str; d_vocab : list (str * N); d_unk : str; d_prefix : str; d_max : N }.
  (** models.rs:611-632. *)
  Definition wp_kwarg (c : wp_config) (kv : str * value) : result wp_config :=
    let '(mkWC fi vo u p n) := c in
    let '(k, v) := kv in
    if str_eqb k (key "unk_token") then let! t := arg_str v in Ok (mkWC fi vo t p n)
    else if str_eqb k (key "max_input_chars_per_word") then let! x := arg_usize v in Ok (mkWC fi vo u p x)
    else if str_eqb k (key "continuing_subword_prefix") then let! t := arg_str v in Ok (mkWC fi vo u t n)
    else Ok c.
  (** [WordPieceBuilder::build], wordpiece/mod.rs:98-117. *)
  Definition wp_config_build (c : wp_config) : result wordpiece :=
    let! vo := match d_file c with Some f => init (read_wordpiece f) | None => Ok (d_vocab c) end in
    Ok (mkWP vo (d_unk c) (d_prefix c) (N.to_nat (d_max c))).
  (** [PyWordPiece::new], models.rs:682-707. *)
  Definition wp_new (vocab : option pm_vocab) (kw : list (str * value)) : result wordpiece :=
    let c := match vocab with
             | None => mkWC None [] (key "[UNK]") (key "##") 100
             | Some (VDict vo) => mkWC None vo (key "[UNK]") (key "##") 100
             | Some (VFile f) => mkWC (Some f) [] (key "[UNK]") (key "##") 100
             end in
    let! c' := each_kwarg wp_kwarg c kw in
    wp_config_build c'.
  (** [PyWordPiece::from_file], models.rs:748-766. *)
  Definition wp_from_file (f : str) (kw : list (str * value)) : result wordpiece :=
    let! vo := init (read_wordpiece f) in
    wp_new (Some (VDict vo)) kw.
  (** models.rs:647-680. *)
  Inductive wp_assign := SetWpUnk (s : str) | SetWpPrefix (s : str) | SetWpMax (n : N).
  Definition assign_wp (m : wordpiece) (a : wp_assign) : wordpiece :=
    match a with
    | SetWpUnk s => mkWP (w_vocab m) s (w_prefix m) (w_max m)
    | SetWpPrefix s => mkWP (w_vocab m) (w_unk m) s (w_max m)
    | SetWpMax n => mkWP (w_vocab m) (w_unk m) (w_prefix m) (N.to_nat n)
    end.

  (** ** WordLevel *)
  (** [PyWordLevel::new], models.rs:803-837, with the types of its arguments checked. *)
  Definition wl_new (vocab : option pm_vocab) (unk : option str) : result wordlevel :=
    let! vo := match vocab with None => Ok [] | Some (VDict vo) => Ok vo | Some (VFile f) => init (read_wordlevel f) end in
    Ok (mkWL vo (match unk with Some t => t | None => key "<unk>" end)).
  (** [PyWordLevel::from_file], models.rs:877-893. *)
  Definition wl_from_file (f : str) (unk : option str) : result wordlevel :=
    let! vo := init (read_wordlevel f) in
    wl_new (Some (VDict vo)) unk.
  (** models.rs:798-801. *)
  Definition assign_wl (m : wordlevel) (s : str) : wordlevel := mkWL (l_vocab m) s.

  (** ** Unigram *)
  (** A model with the attributes of sampling, which [UnigramModel] does not hold. *)
  Record uni_object := mkUO { uo_model : @unigram W; uo_alpha : option W; uo_nbest : option N }.
  (** [PyUnigram::new], models.rs:955-990; [Unigram::default], unigram/model.rs:90-95. *)
  Definition uni_new (vocab : option (list (str * W))) (unk : option N) (fallback : option bool) (alpha : option W) (nbest : option N) : result uni_object :=
    match vocab, unk with
    | Some vo, _ =>
        let! m := init (uni_from A vo unk (match fallback with Some b => b | None => false end)) in
        Ok (mkUO m alpha nbest)
    | None, None =>
        let! m := match uni_from A [(key "<unk>", a_zero A)] (Some 0%N) false with Ok m => Ok m | _ => Panic end in
        Ok (mkUO m alpha nbest)
    | None, Some _ => Err PValue
    end.
  (** models.rs:935-953. *)
  Inductive uni_assign := SetAlpha (o : option W) | SetNbest (o : option N).
  Definition assign_uni (m : uni_object) (a : uni_assign) : uni_object :=
    match a with
    | SetAlpha o => mkUO (uo_model m) o (uo_nbest m)
    | SetNbest o => mkUO (uo_model m) (uo_alpha m) o
    end.

  (** ** Pickles *)
  (** [__getstate__] and [__setstate__], models.rs:120-139: the JSON of the model.
      The model loaded has the default capacity. *)
  Definition get_state (F : floats W) by_rank (m : @model W) : result (json W) := init (model_to_json F by_rank m).
  Definition set_state (F : floats W) (j : json W) : result (@model W) := init (model_of_json A F j).
  (** Of a Unigram, without its attributes of sampling (unigram/serialization.rs:8-79). *)
  Definition uni_get_state (F : floats W) by_rank (m : uni_object) : result (json W) := get_state F by_rank (MUnigram (uo_model m)).
  Definition uni_set_state (F : floats W) (j : json W) : result uni_object :=
    let! m := set_state F j in
    match m with MUnigram m => Ok (mkUO m None None) | _ => Panic end.
End models.
