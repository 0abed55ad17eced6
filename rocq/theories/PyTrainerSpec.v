(** What a user expects of the trainers as Python objects. *)
From Coq Require Import ZArith String.
From Verif Require Import Base StrBytes AMap AddedModel PySettingsModel ModelFilesModel PyTrainerModel.

(** The attributes that the documentation gives to each class. *)
Definition attributes (kd : kind) : list string :=
  match kd with
  | KBpe => ["vocab_size"; "min_frequency"; "show_progress"; "special_tokens"; "limit_alphabet"; "initial_alphabet";
             "continuing_subword_prefix"; "end_of_word_suffix"; "progress_format"; "max_token_length"]
  | KWordPiece => ["vocab_size"; "min_frequency"; "show_progress"; "special_tokens"; "limit_alphabet"; "initial_alphabet";
                   "continuing_subword_prefix"; "end_of_word_suffix"]
  | KWordLevel => ["vocab_size"; "min_frequency"; "show_progress"; "special_tokens"]
  end%string.

(** What the arguments say of an attribute: the default when it is not given, or when the
    class does not have it. *)
Definition t_says {T} (means : tval -> T -> Prop) (kd : kind) (kw : list (str * tval)) (x : string) (default v : T) : Prop :=
  match (if existsb (String.eqb x) (attributes kd) then aget str_eqb (key x) kw else None) with Some a => means a v | None => v = default end.

(** The meanings of the values. *)
Definition number (a : tval) (n : N) : Prop :=
  (a = TInt (Z.of_N n) /\ (n < 2 ^ 64)%N) \/ (a = TBool true /\ n = 1%N) \/ (a = TBool false /\ n = 0%N).
Definition flag (a : tval) (b : bool) : Prop := a = TBool b.
Definition a_text (a : tval) (s : str) : Prop := a = TStr s.
Definition given {T} (means : tval -> T -> Prop) (a : tval) (o : option T) : Prop := exists x, o = Some x /\ means a x.
Definition none_or {T} (means : tval -> T -> Prop) (a : tval) (o : option T) : Prop := (a = TNone /\ o = None) \/ given means a o.
Definition format (a : tval) (f : progress) : Prop :=
  exists s, a = TStr s /\ (f = JsonLines <-> s = key "json") /\ (f = Silent <-> s = key "silent").
Definition a_sequence (a : tval) (l : list elem) : Prop := a = TList l \/ a = TTuple l.
(** A set of characters: those that start the texts of a sequence, or those that are the
    texts. *)
Definition first_chars (a : tval) (cs : list char) : Prop :=
  exists ss, a_sequence a (map EText ss) /\ NoDup cs /\ forall c, In c cs <-> exists s, In (c :: s) ss.
Definition the_chars (a : tval) (cs : list char) : Prop :=
  exists l, a_sequence a (map (fun c => EText [c]) l) /\ NoDup cs /\ forall c, In c cs <-> In c l.
(** The special token that an element stands for: a text is a token without options, an
    object the token it describes, made special: not matched on the normalized text unless
    the object says so. *)
Definition special_token (st : token_store) (e : elem) (t : added_token) : Prop :=
  match e with
  | EText s => t = mkAdded s false false false false true
  | EToken r => exists p, nth_error st r = Some p /\
      t = mkAdded (pt_content p) (or_else (pt_single_word p) false) (or_else (pt_lstrip p) false) (or_else (pt_rstrip p) false) (or_else (pt_normalized p) false) true
  | EOther => False
  end.
Definition special_list (st : token_store) (a : tval) (ts : list added_token) : Prop := exists l, a = TList l /\ Forall2 (special_token st) l ts.

(** The trainer [c'] that the arguments make of [c]; [new] for a constructor. *)
Definition trainer_says_with (alphabet : tval -> list char -> Prop) (new : bool) (kd : kind) (st : token_store) (kw : list (str * tval)) (c c' : pt) : Prop :=
  t_says number kd kw "vocab_size" (pt_vocab c) (pt_vocab c') /\
  t_says number kd kw "min_frequency" (pt_min c) (pt_min c') /\
  t_says flag kd kw "show_progress" (pt_show c) (pt_show c') /\
  t_says format kd kw "progress_format" (pt_format c) (pt_format c') /\
  t_says (special_list st) kd kw "special_tokens" (pt_tokens c) (pt_tokens c') /\
  t_says (if new then given number else none_or number) kd kw "limit_alphabet" (pt_limit c) (pt_limit c') /\
  t_says alphabet kd kw "initial_alphabet" (pt_alphabet c) (pt_alphabet c') /\
  t_says (if new then given a_text else none_or a_text) kd kw "continuing_subword_prefix" (pt_prefix c) (pt_prefix c') /\
  t_says (if new then given a_text else none_or a_text) kd kw "end_of_word_suffix" (pt_suffix c) (pt_suffix c') /\
  t_says (none_or number) kd kw "max_token_length" (pt_max c) (pt_max c') /\
  pt_words c' = pt_words c.
Definition trainer_says (new : bool) := trainer_says_with (if new then first_chars else the_chars) new.

(** The documented defaults: 30000 tokens, no minimal frequency, progress shown by bars, no
    special tokens, no alphabet, no limits, and the prefix ## for WordPiece only. *)
Definition defaults (kd : kind) : pt := {|
  pt_vocab := 30000; pt_min := 0; pt_show := true; pt_format := Indicatif; pt_tokens := []; pt_limit := None; pt_alphabet := [];
  pt_prefix := match kd with KWordPiece => Some (key "##") | KBpe | KWordLevel => None end; pt_suffix := None; pt_max := None; pt_words := [] |}.

(** The objects [st'] after those of [st] that [l] names were made special, and nothing
    else. *)
Definition as_special (p : py_token) : py_token :=
  mkPyToken (pt_content p) true (pt_single_word p) (pt_lstrip p) (pt_rstrip p) (pt_normalized p).
Definition marked (l : list elem) (st st' : token_store) : Prop :=
  List.length st' = List.length st /\
  forall r p, nth_error st r = Some p -> (In (EToken r) l /\ nth_error st' r = Some (as_special p)) \/ (~ In (EToken r) l /\ nth_error st' r = Some p).
(** The objects that an argument names. *)
Definition listed (kw : list (str * tval)) : list elem :=
  match aget str_eqb (key "special_tokens") kw with Some (TList l) => l | _ => [] end.

(** What holds of every trainer: its special tokens are special, its alphabet is a set, its
    numbers are machine numbers, and what its class does not have is at its default. *)
Definition small (o : option N) : Prop := forall n, o = Some n -> (n < 2 ^ 64)%N.
Record sound (kd : kind) (c : pt) : Prop := mkSound {
  sd_special : Forall (fun t => at_special t = true) (pt_tokens c);
  sd_set : NoDup (pt_alphabet c);
  sd_vocab : (pt_vocab c < 2 ^ 64)%N; sd_min : (pt_min c < 2 ^ 64)%N; sd_limit : small (pt_limit c); sd_max : small (pt_max c);
  sd_bpe : kd <> KBpe -> pt_format c = Indicatif /\ pt_max c = None;
  sd_level : kd = KWordLevel -> pt_limit c = None /\ pt_alphabet c = [] /\ pt_prefix c = None /\ pt_suffix c = None }.

(** What a history of assignments leads to: one with a meaning gives it to its attribute,
    any other one leaves the trainer and makes special at most the objects of a first
    part of its list. *)
Inductive assigned (kd : kind) : token_store -> pt -> list (str * tval) -> token_store -> pt -> Prop :=
| as_done st c : assigned kd st c [] st c
| as_ok st c k v l st1 c1 st' c' :
    In k (map key (attributes kd)) -> trainer_says false kd st [(k, v)] c c1 -> marked (listed [(k, v)]) st st1 ->
    assigned kd st1 c1 l st' c' -> assigned kd st c ((k, v) :: l) st' c'
| as_refused st c k v l st1 st' c' l1 l2 :
    (~ In k (map key (attributes kd)) \/ forall c1, ~ trainer_says false kd st [(k, v)] c c1) -> listed [(k, v)] = l1 ++ l2 -> marked l1 st st1 ->
    assigned kd st1 c l st' c' -> assigned kd st c ((k, v) :: l) st' c'.

(** A trainer that a pickle can hold: also the words are counted in machine numbers, once
    each. *)
Definition storable (kd : kind) (c : pt) : Prop :=
  sound kd c /\ NoDup (map fst (pt_words c)) /\ Forall (fun wn => (snd wn < 2 ^ 64)%N) (pt_words c).
(** A use that restores only pickles of the class [kd]. *)
Definition fair {W} (kd : kind) (u : trainer_use (W := W)) : Prop :=
  match u with TSetState j => exists c, storable kd c /\ j = trainer_state kd c | _ => True end.
