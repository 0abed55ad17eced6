(** Model of the trainers as Python objects: their constructors, attributes and pickles,
    and what they do to the [AddedToken] objects given to them.  [UnigramTrainer] is
    not modelled here.
    Sources: /repo/bindings/python/src/trainers.rs,
    /repo/tokenizers/src/models/bpe/trainer.rs:41-221, wordpiece/trainer.rs:9-165,
    wordlevel/trainer.rs:8-36, models/mod.rs:227-233, utils/progress.rs:7-16.
    As elsewhere a hash map or set is a list without duplicates whose order stands for
    its (unspecified) iteration order. *)
From Coq Require Import ZArith String.
From Verif Require Import Base StrBytes AMap AddedModel PySettingsModel ModelFilesModel ComponentFilesModel PyModelModel.

(** An element of a Python list: a text, an [AddedToken] (the number of the object) or
    any other object. *)
Inductive elem := EText (s : str) | EToken (r : nat) | EOther.
(** A Python object given as an argument. *)
Inductive tval := TNone | TBool (b : bool) | TInt (z : Z) | TStr (s : str) | TList (l : list elem) | TTuple (l : list elem) | TObject.
(** The [AddedToken] objects of the program. *)
Definition token_store := list py_token.

Notation "'result' T" := (res pm_error T) (at level 10).

(** The class of a trainer, and [ProgressFormat]. *)
Inductive kind := KBpe | KWordPiece | KWordLevel.
Inductive progress := Indicatif | JsonLines | Silent.

(** [BpeTrainer], bpe/trainer.rs:197-221.  A [WordPieceTrainer] is one inside
    (wordpiece/trainer.rs:93-96); a [WordLevelTrainer] has the fields [pt_min],
    [pt_vocab], [pt_show], [pt_tokens] and [pt_words]. *)
Record pt := mkPT {
  pt_min : N; pt_vocab : N; pt_show : bool; pt_format : progress; pt_tokens : list added_token; pt_limit : option N;
  pt_alphabet : list char; pt_prefix : option str; pt_suffix : option str; pt_max : option N; pt_words : list (str * N) }.
(** The builders: bpe/trainer.rs:60-77, wordpiece/trainer.rs:9-21,
    wordlevel/trainer.rs:11-27. *)
Definition pt0 (k : kind) : pt :=
  mkPT 0 30000 true Indicatif [] None [] (match k with KWordPiece => Some (key "##") | _ => None end) None None [].

(** ** Reading a value *)
(** [usize] and [u64]. *)
Definition t_num (v : tval) : result N :=
  match v with
  | TInt z => if Z.leb 0 z && Z.ltb z (2 ^ 64) then Ok (Z.to_N z) else Err PType
  | TBool b => Ok (if b then 1 else 0)%N
  | _ => Err PType
  end.
Definition t_str (v : tval) : result str := match v with TStr s => Ok s | _ => Err PType end.
Definition t_bool (v : tval) : result bool := match v with TBool b => Ok b | _ => Err PType end.
Definition t_option {T} (read : tval -> result T) (v : tval) : result (option T) :=
  match v with TNone => Ok None | _ => let! x := read v in Ok (Some x) end.
(** A value given to a method of the builder that wraps it. *)
Definition t_some {T} (read : tval -> result T) (v : tval) : result (option T) := let! x := read v in Ok (Some x).
(** trainers.rs:373-381 and 227-234. *)
Definition t_format (v : tval) : result progress :=
  let! s := t_str v in
  Ok (if str_eqb s (key "json") then JsonLines else if str_eqb s (key "silent") then Silent else Indicatif).
(** [Vec<String>] and [Vec<char>]: any sequence but a text. *)
Definition t_seq (v : tval) : result (list elem) := match v with TList l | TTuple l => Ok l | _ => Err PType end.
Definition e_text (e : elem) : result str := match e with EText s => Ok s | _ => Err PType end.
Definition e_char (e : elem) : result char := match e with EText [c] => Ok c | _ => Err PType end.
(** The alphabet of a constructor, trainers.rs:405-413, and of a setter, 329-337. *)
Definition t_alphabet_new (v : tval) : result (list char) :=
  let! l := t_seq v in let! ss := map_res e_text l in
  Ok (nodup N.eq_dec (flat_map (fun s => match s with c :: _ => [c] | [] => [] end) ss)).
Definition t_alphabet_set (v : tval) : result (list char) :=
  let! l := t_seq v in let! cs := map_res e_char l in Ok (nodup N.eq_dec cs).

(** [token.special = true] on an object. *)
Definition make_special (t : py_token) : py_token :=
  mkPyToken (pt_content t) true (pt_single_word t) (pt_lstrip t) (pt_rstrip t) (pt_normalized t).
Fixpoint mark_at (r : nat) (st : token_store) : token_store :=
  match st, r with
  | [], _ => []
  | t :: st', O => make_special t :: st'
  | t :: st', S r' => t :: mark_at r' st'
  end.
(** The special tokens, trainers.rs:382-402 and 255-281: the objects are changed one
    after the other until an element is neither a text nor an [AddedToken]. *)
Fixpoint read_specials (st : token_store) (l : list elem) : token_store * result (list added_token) :=
  match l with
  | [] => (st, Ok [])
  | EText s :: l' =>
      let '(st', r) := read_specials st l' in
      (st', let! ts := r in Ok (get_token (token_from s true) :: ts))
  | EToken k :: l' =>
      match nth_error st k with
      | Some t =>
          let '(st', r) := read_specials (mark_at k st) l' in
          (st', let! ts := r in Ok (get_token (make_special t) :: ts))
      | None => (st, Err PType)
      end
  | EOther :: _ => (st, Err PType)
  end.
(** Only a list is taken. *)
Definition t_specials (st : token_store) (v : tval) : token_store * result (list added_token) :=
  match v with TList l => read_specials st l | _ => (st, Err PType) end.

(** ** One argument of a constructor ([new], trainers.rs:369-419, 600-640, 760-792) or one
    assignment (the setters, 158-357, 475-590, 683-745) *)
Definition common_key (k : str) : bool := str_eqb k (key "vocab_size") || str_eqb k (key "min_frequency") || str_eqb k (key "show_progress").
Definition affix_key (k : str) : bool :=
  str_eqb k (key "limit_alphabet") || str_eqb k (key "initial_alphabet") || str_eqb k (key "continuing_subword_prefix") || str_eqb k (key "end_of_word_suffix").
Definition bpe_key (k : str) : bool := str_eqb k (key "progress_format") || str_eqb k (key "max_token_length").
Definition has_field (kd : kind) (k : str) : bool :=
  match kd with
  | KBpe => common_key k || affix_key k || bpe_key k
  | KWordPiece => common_key k || affix_key k
  | KWordLevel => common_key k
  end.

Definition set_field (new : bool) (c : pt) (k : str) (v : tval) : result pt :=
  let '(mkPT mi vo sh fo sp li al pr su mx ws) := c in
  if str_eqb k (key "vocab_size") then let! x := t_num v in Ok (mkPT mi x sh fo sp li al pr su mx ws)
  else if str_eqb k (key "min_frequency") then let! x := t_num v in Ok (mkPT x vo sh fo sp li al pr su mx ws)
  else if str_eqb k (key "show_progress") then let! x := t_bool v in Ok (mkPT mi vo x fo sp li al pr su mx ws)
  else if str_eqb k (key "progress_format") then let! x := t_format v in Ok (mkPT mi vo sh x sp li al pr su mx ws)
  else if str_eqb k (key "limit_alphabet") then let! x := (if new then t_some t_num v else t_option t_num v) in Ok (mkPT mi vo sh fo sp x al pr su mx ws)
  else if str_eqb k (key "initial_alphabet") then let! x := (if new then t_alphabet_new v else t_alphabet_set v) in Ok (mkPT mi vo sh fo sp li x pr su mx ws)
  else if str_eqb k (key "continuing_subword_prefix") then let! x := (if new then t_some t_str v else t_option t_str v) in Ok (mkPT mi vo sh fo sp li al x su mx ws)
  else if str_eqb k (key "end_of_word_suffix") then let! x := (if new then t_some t_str v else t_option t_str v) in Ok (mkPT mi vo sh fo sp li al pr x mx ws)
  else if str_eqb k (key "max_token_length") then let! x := t_option t_num v in Ok (mkPT mi vo sh fo sp li al pr su x ws)
  else Ok c.
Definition with_tokens (c : pt) (sp : list added_token) : pt :=
  mkPT (pt_min c) (pt_vocab c) (pt_show c) (pt_format c) sp (pt_limit c) (pt_alphabet c) (pt_prefix c) (pt_suffix c) (pt_max c) (pt_words c).

(** A name that is no argument is ignored (with a line on the standard output); assigning
    to a name that is no attribute raises [AttributeError]. *)
Definition one_setting (new : bool) (kd : kind) (st : token_store) (c : pt) (k : str) (v : tval) : token_store * result pt :=
  if str_eqb k (key "special_tokens") then
    let '(st', r) := t_specials st v in (st', let! sp := r in Ok (with_tokens c sp))
  else if has_field kd k then (st, set_field new c k v)
  else (st, if new then Ok c else Err PType).

Fixpoint settings (kd : kind) (st : token_store) (c : pt) (kw : list (str * tval)) : token_store * result pt :=
  match kw with
  | [] => (st, Ok c)
  | (k, v) :: kw' =>
      let '(st', r) := one_setting true kd st c k v in
      match r with Ok c' => settings kd st' c' kw' | Err e => (st', Err e) | Panic => (st', Panic) end
  end.
(** The constructors. *)
Definition trainer_new (kd : kind) (st : token_store) (kw : list (str * tval)) : token_store * result pt := settings kd st (pt0 kd) kw.

(** Assignments, each in a [try]. *)
Fixpoint assigns (kd : kind) (st : token_store) (c : pt) (l : list (str * tval)) : token_store * pt :=
  match l with
  | [] => (st, c)
  | (k, v) :: l' =>
      let '(st', r) := one_setting false kd st c k v in
      assigns kd st' (match r with Ok c' => c' | _ => c end) l'
  end.

(** ** The getters, trainers.rs:152-350, on an attribute of the class: the value and new
    objects for the special tokens *)
Definition num_val (o : option N) : tval := match o with Some n => TInt (Z.of_N n) | None => TNone end.
Definition str_val (o : option str) : tval := match o with Some s => TStr s | None => TNone end.
Definition get_attr (st : token_store) (c : pt) (k : str) : token_store * tval :=
  if str_eqb k (key "special_tokens") then
    (st ++ map of_token (pt_tokens c), TList (map EToken (seq (List.length st) (List.length (pt_tokens c)))))
  else (st,
    if str_eqb k (key "vocab_size") then TInt (Z.of_N (pt_vocab c))
    else if str_eqb k (key "min_frequency") then TInt (Z.of_N (pt_min c))
    else if str_eqb k (key "show_progress") then TBool (pt_show c)
    else if str_eqb k (key "progress_format") then
      TStr (match pt_format c with Indicatif => key "indicatif" | JsonLines => key "json" | Silent => key "silent" end)
    else if str_eqb k (key "limit_alphabet") then num_val (pt_limit c)
    else if str_eqb k (key "initial_alphabet") then TList (map (fun ch => EText [ch]) (pt_alphabet c))
    else if str_eqb k (key "continuing_subword_prefix") then str_val (pt_prefix c)
    else if str_eqb k (key "end_of_word_suffix") then str_val (pt_suffix c)
    else if str_eqb k (key "max_token_length") then num_val (pt_max c)
    else TObject).

(** ** Pickles, trainers.rs:51-76: the derived serialization of [TrainerWrapper] *)
Section pickles.
  Context {W : Type}.
  Notation jvalue := (json W).
  Notation "'fresult' T" := (res file_error T) (at level 10).
  Definition of_format (f : progress) : jvalue := JStr (match f with Indicatif => key "Indicatif" | JsonLines => key "JsonLines" | Silent => key "Silent" end).
  Definition as_format (j : jvalue) : fresult progress :=
    let! s := as_str j in
    if str_eqb s (key "Indicatif") then Ok Indicatif else if str_eqb s (key "JsonLines") then Ok JsonLines
    else if str_eqb s (key "Silent") then Ok Silent else Err EFile.
  Definition of_num (o : option N) : jvalue := match o with Some n => JInt n | None => JNull end.
  (** [AddedToken], added_vocabulary.rs:17-31. *)
  Definition of_added_token (t : added_token) : jvalue :=
    JObj [(key "content", JStr (at_content t)); (key "single_word", JBool (at_single_word t)); (key "lstrip", JBool (at_lstrip t));
          (key "rstrip", JBool (at_rstrip t)); (key "normalized", JBool (at_normalized t)); (key "special", JBool (at_special t))].
  Definition as_added_token (j : jvalue) : fresult added_token :=
    match j with
    | JObj l =>
        let! c := need "content" as_str l in
        let! w := need "single_word" as_bool l in
        let! a := need "lstrip" as_bool l in
        let! b := need "rstrip" as_bool l in
        let! n := need "normalized" as_bool l in
        let! s := need "special" as_bool l in
        Ok (mkAdded c w a b n s)
    | _ => Err EFile
    end.
  Definition of_words (ws : list (str * N)) : jvalue := JObj (map (fun wn => (fst wn, JInt (snd wn))) ws).
  Fixpoint into_words (l : list (str * jvalue)) (m : list (str * N)) : fresult (list (str * N)) :=
    match l with [] => Ok m | (w, v) :: l' => let! n := as_usize v in into_words l' (aset str_eqb w n m) end.
  Definition as_words (j : jvalue) : fresult (list (str * N)) := match j with JObj l => into_words l [] | _ => Err EFile end.

  Definition bpe_trainer_to_json (c : pt) : jvalue :=
    JObj [(key "min_frequency", JInt (pt_min c)); (key "vocab_size", JInt (pt_vocab c)); (key "show_progress", JBool (pt_show c));
          (key "progress_format", of_format (pt_format c)); (key "special_tokens", JArr (map of_added_token (pt_tokens c)));
          (key "limit_alphabet", of_num (pt_limit c)); (key "initial_alphabet", JArr (map (fun ch => JStr [ch]) (pt_alphabet c)));
          (key "continuing_subword_prefix", of_option_str (pt_prefix c)); (key "end_of_word_suffix", of_option_str (pt_suffix c));
          (key "max_token_length", of_num (pt_max c)); (key "words", of_words (pt_words c))].
  Definition bpe_trainer_of_json (j : jvalue) : fresult pt :=
    match j with
    | JObj l =>
        let! mi := need "min_frequency" as_usize l in
        let! vo := need "vocab_size" as_usize l in
        let! sh := need "show_progress" as_bool l in
        let! fo := need "progress_format" as_format l in
        let! sp := need "special_tokens" (as_vec as_added_token) l in
        let! li := may "limit_alphabet" as_usize l in
        let! al := need "initial_alphabet" (as_vec as_char) l in
        let! pr := may "continuing_subword_prefix" as_str l in
        let! su := may "end_of_word_suffix" as_str l in
        let! mx := may "max_token_length" as_usize l in
        let! ws := need "words" as_words l in
        Ok (mkPT mi vo sh fo sp li (nodup N.eq_dec al) pr su mx ws)
    | _ => Err EFile
    end.
  Definition wl_trainer_to_json (c : pt) : jvalue :=
    JObj [(key "min_frequency", JInt (pt_min c)); (key "vocab_size", JInt (pt_vocab c)); (key "show_progress", JBool (pt_show c));
          (key "special_tokens", JArr (map of_added_token (pt_tokens c))); (key "words", of_words (pt_words c))].
  Definition wl_trainer_of_json (j : jvalue) : fresult pt :=
    match j with
    | JObj l =>
        let! mi := need "min_frequency" as_usize l in
        let! vo := need "vocab_size" as_usize l in
        let! sh := need "show_progress" as_bool l in
        let! sp := need "special_tokens" (as_vec as_added_token) l in
        let! ws := need "words" as_words l in
        Ok (mkPT mi vo sh Indicatif sp None [] None None None ws)
    | _ => Err EFile
    end.
  Definition trainer_state (kd : kind) (c : pt) : jvalue :=
    match kd with
    | KBpe => JObj [(key "BpeTrainer", bpe_trainer_to_json c)]
    | KWordPiece => JObj [(key "WordPieceTrainer", JObj [(key "bpe_trainer", bpe_trainer_to_json c)])]
    | KWordLevel => JObj [(key "WordLevelTrainer", wl_trainer_to_json c)]
    end.
  Definition trainer_of_state (j : jvalue) : fresult (kind * pt) :=
    match j with
    | JObj [(k, v)] =>
        if str_eqb k (key "BpeTrainer") then let! c := bpe_trainer_of_json v in Ok (KBpe, c)
        else if str_eqb k (key "WordPieceTrainer") then
          match v with JObj l => let! c := need "bpe_trainer" bpe_trainer_of_json l in Ok (KWordPiece, c) | _ => Err EFile end
        else if str_eqb k (key "WordLevelTrainer") then let! c := wl_trainer_of_json v in Ok (KWordLevel, c)
        else Err EFile
    | _ => Err EFile
    end.

  (** ** An object: its class, which never changes, and the trainer inside it, which
      [__setstate__] (trainers.rs:61-76) replaces without a look at the class *)
  Record trainer_obj := mkTO { to_class : kind; to_kind : kind; to_trainer : pt }.
  Definition same_kind (a b : kind) : bool :=
    match a, b with KBpe, KBpe | KWordPiece, KWordPiece | KWordLevel, KWordLevel => true | _, _ => false end.
  (** A setter: the value is converted first (but for the special tokens, which must only be
      a list); [setter!], trainers.rs:133-139, does nothing on a trainer of another class. *)
  Definition obj_assign (st : token_store) (o : trainer_obj) (k : str) (v : tval) : token_store * res pm_error trainer_obj :=
    if same_kind (to_class o) (to_kind o) then
      let '(st', r) := one_setting false (to_class o) st (to_trainer o) k v in
      (st', let! c := r in Ok (mkTO (to_class o) (to_kind o) c))
    else if str_eqb k (key "special_tokens") then (st, match v with TList _ => Ok o | _ => Err PType end)
    else if has_field (to_class o) k then (st, let! _ := set_field false (to_trainer o) k v in Ok o)
    else (st, Err PType).
  (** A getter: [getter!], trainers.rs:122-131, is [unreachable!()] there. *)
  Definition obj_get (st : token_store) (o : trainer_obj) (k : str) : token_store * res pm_error tval :=
    if same_kind (to_class o) (to_kind o) then let '(st', v) := get_attr st (to_trainer o) k in (st', Ok v) else (st, Panic).
  (** (Its exception is a plain [Exception], like that of a model that cannot be made.) *)
  Definition obj_set_state (o : trainer_obj) (j : jvalue) : res pm_error trainer_obj :=
    match trainer_of_state j with Ok (kd, c) => Ok (mkTO (to_class o) kd c) | Err _ => Err PInit | Panic => Panic end.

  (** What a program does with an object; errors are caught. *)
  Inductive trainer_use := TAssign (k : str) (v : tval) | TGet (k : str) | TSetState (j : jvalue).
  Definition use_trainer (st : token_store) (o : trainer_obj) (u : trainer_use) : token_store * trainer_obj :=
    match u with
    | TAssign k v => let '(st', r) := obj_assign st o k v in (st', match r with Ok o' => o' | _ => o end)
    | TGet k => (fst (obj_get st o k), o)
    | TSetState j => (st, match obj_set_state o j with Ok o' => o' | _ => o end)
    end.
  Fixpoint use_trainers (st : token_store) (o : trainer_obj) (l : list trainer_use) : token_store * trainer_obj :=
    match l with [] => (st, o) | u :: l' => let '(st', o') := use_trainer st o u in use_trainers st' o' l' end.
End pickles.
