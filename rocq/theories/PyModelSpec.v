(** What a user expects of the models as Python objects. *)
From Coq Require Import ZArith String.
From Verif Require Import Base StrBytes AMap EncodingModel BpeWordModel BpeModel WordPieceModel UnigramModel ModelFilesModel ModelFilesSpec PyModelModel.

(** What a keyword argument says: its default when it is not given. *)
Definition kw_says {W T} (means : arg W -> T -> Prop) (kw : list (str * arg W)) (k : string) (default v : T) : Prop :=
  match aget str_eqb (key k) kw with Some a => means a v | None => v = default end.

(** The meanings: an unsigned integer, a text, a flag, a probability, and either
    None or such a value. *)
Definition is_number {W} (a : arg W) (n : N) : Prop :=
  (a = AInt (Z.of_N n) /\ (n < 2 ^ 64)%N) \/ (a = ABool true /\ n = 1%N) \/ (a = ABool false /\ n = 0%N).
Definition is_text {W} (a : arg W) (s : str) : Prop := a = AStr s.
Definition is_flag {W} (a : arg W) (b : bool) : Prop := a = ABool b.
Definition some_text {W} (a : arg W) (o : option str) : Prop := exists s, a = AStr s /\ o = Some s.
Definition none_or_text {W} (a : arg W) (o : option str) : Prop := (a = ANone /\ o = None) \/ some_text a o.
Definition none_or_dropout {W} (class : W -> dropout_value) (of_int : Z -> W) (a : arg W) (d : dropout_value) : Prop :=
  (a = ANone /\ d = DNone) \/
  exists w, (a = AFloat w \/ (exists z, a = AInt z /\ w = of_int z) \/ (a = ABool true /\ w = of_int 1%Z) \/ (a = ABool false /\ w = of_int 0%Z)) /\ d = class w.

(** Where the vocabulary and the merges come from: both from memory, both from files,
    or both absent. *)
Definition bpe_source (read_bpe : str -> str -> res file_error (list (str * N) * list (str * str)))
           (vocab : option pm_vocab) (merges : option pm_merges) (vo : list (str * N)) (me : list (str * str)) : Prop :=
  (vocab = None /\ merges = None /\ vo = [] /\ me = []) \/
  (vocab = Some (VDict vo) /\ merges = Some (GList me)) \/
  (exists f g, vocab = Some (VFile f) /\ merges = Some (GFile g) /\ read_bpe f g = Ok (vo, me)).
Definition vocab_source (read : str -> res file_error (list (str * N))) (vocab : option pm_vocab) (vo : list (str * N)) : Prop :=
  (vocab = None /\ vo = []) \/ vocab = Some (VDict vo) \/ (exists f, vocab = Some (VFile f) /\ read f = Ok vo).

(** The last value given to something, or what it was. *)
Fixpoint newest {X T} (value : X -> option T) (l : list X) (old : T) : T :=
  match l with
  | [] => old
  | a :: l' => newest value l' (match value a with Some v => v | None => old end)
  end.

(** The value that an assignment gives to each attribute. *)
Definition to_dropout a := match a with SetDropout d => Some d | _ => None end.
Definition to_unk a := match a with SetUnk o => Some o | _ => None end.
Definition to_prefix a := match a with SetPrefix o => Some o | _ => None end.
Definition to_suffix a := match a with SetSuffix o => Some o | _ => None end.
Definition to_fuse a := match a with SetFuse b => Some b | _ => None end.
Definition to_fallback a := match a with SetFallback b => Some b | _ => None end.
Definition to_ignore a := match a with SetIgnore b => Some b | _ => None end.

(** The model [m] with the attributes that the assignments leave. *)
Definition after_assign (m : bpe) (l : list bpe_assign) : bpe :=
  mkBpe (b_vocab m) (b_vocab_r m) (b_merges m)
    (newest to_dropout l (b_dropout m)) (newest to_unk l (b_unk m)) (newest to_prefix l (b_prefix m)) (newest to_suffix l (b_suffix m))
    (newest to_fuse l (b_fuse m)) (newest to_fallback l (b_fallback m)) (newest to_ignore l (b_ignore_merges m)).

(** What the calls among the uses of an object are expected to return: each what the
    model gives with the attributes [done] assigned before. *)
Fixpoint answers (pop : list merge -> option (merge * list merge)) (m : bpe) (done : list bpe_assign) (l : list bpe_use) : list (res bpe_error (list token)) :=
  match l with
  | [] => []
  | UAssign a :: l' => answers pop m (done ++ [a]) l'
  | UTokenize _ s draws :: l' => bpe_tokenize pop (after_assign m done) draws s :: answers pop m done l'
  | _ :: l' => answers pop m done l'
  end.

(** The cache is cleared between an assignment other than of [dropout] and
    [ignore_merges] and the next call. *)
Fixpoint cleared (dirty : bool) (l : list bpe_use) : Prop :=
  match l with
  | [] => True
  | UAssign (SetDropout _) :: l' | UAssign (SetIgnore _) :: l' | UResize _ :: l' => cleared dirty l'
  | UAssign _ :: l' => cleared true l'
  | UClear :: l' => cleared false l'
  | UTokenize _ _ _ :: l' => dirty = false /\ cleared dirty l'
  end.
