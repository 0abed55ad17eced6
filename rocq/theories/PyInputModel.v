(** Model of the inputs of the Python bindings: how Python objects become texts to encode.
    Source: /repo/bindings/python/src/tokenizer.rs. *)
From Verif Require Import Base StrBytes Utf8 EncodingModel PreTokModel TokenizerModel.

(** Python objects, as far as the extraction of inputs looks at them.  A [str] is a list
    of code points, which may be lone surrogates.  [PyArrayU] is a one-dimensional
    contiguous numpy array of dtype [U], in the byte order of the machine (little
    endian): the code points of each element, all of the same number, short elements
    being filled up with 0.  [PyArrayO] is a one-dimensional array of dtype [object].
    [PyOther] is anything that is neither text nor a sequence ([None], numbers, ...).
    Simplified: other types of sequences, arrays of other shapes and subclasses are left
    out. *)
Inductive pyobj :=
| PyStr (s : list N)
| PyList (l : list pyobj)
| PyTuple (l : list pyobj)
| PyArrayU (items : list (list N))
| PyArrayO (l : list pyobj)
| PyOther.

(** Exceptions: [TypeError], [ValueError], [UnicodeEncodeError] (a [ValueError] in
    Python), and what the tokenizer reports. *)
Inductive py_error := EType | EValue | EUnicode | ETokenizer (e : tok_error).
Definition to_py {A} (r : res tok_error A) : res py_error A :=
  match r with Ok a => Ok a | Err e => Err (ETokenizer e) | Panic => Panic end.

(** [extract::<String>] of PyO3. *)
Definition py_string (o : pyobj) : res py_error str :=
  match o with
  | PyStr s => if forallb is_scalar s then Ok s else Err EUnicode
  | _ => Err EType
  end.
(** [to_string_lossy] of PyO3: each of the three bytes of a surrogate is replaced. *)
Definition py_lossy (s : list N) : str :=
  flat_map (fun c => if is_scalar c then [c] else [replacement_char; replacement_char; replacement_char]) s.
(** The items of a sequence, [extract::<Vec<_>>] of PyO3 (text is refused); numpy gives
    the elements of an array of dtype [U] without the zeros at the end. *)
Fixpoint strip_zeros (s : list N) : list N :=
  match s with
  | [] => []
  | c :: r => match strip_zeros r with [] => if N.eqb c 0 then [] else [c] | r' => c :: r' end
  end.
Definition py_items (o : pyobj) : option (list pyobj) :=
  match o with
  | PyList l | PyTuple l | PyArrayO l => Some l
  | PyArrayU items => Some (map (fun s => PyStr (strip_zeros s)) items)
  | _ => None
  end.

(** [TextInputSequence], tokenizer.rs:269-281. *)
Definition text_input (o : pyobj) : res py_error str :=
  match py_string o with Ok s => Ok s | Err _ => Err EType | Panic => Panic end.

(** [PyArrayUnicode], tokenizer.rs:288-358: each element is read as UTF-8. *)
Definition le32 (c : N) : list N := [N.modulo c 256; N.modulo (c / 256) 256; N.modulo (c / 65536) 256; N.modulo (c / 16777216) 256].
Definition array_unicode (o : pyobj) : res py_error (list str) :=
  match o with
  | PyArrayU items => map_res (fun s => match from_utf8 (flat_map le32 s) with Some t => Ok t | None => Err EValue end) items
  | _ => Err EType
  end.
(** [PyArrayStr], tokenizer.rs:360-384. *)
Definition array_str (o : pyobj) : res py_error (list str) :=
  match o with
  | PyArrayO l => map_res (fun x => match x with PyStr s => Ok (py_lossy s) | _ => Err EType end) l
  | _ => Err EType
  end.
(** [extract::<Vec<String>>] of a list or tuple. *)
Definition py_strings (l : list pyobj) : res py_error (list str) := map_res py_string l.

Definition or_else {A} (r : res py_error A) (k : res py_error A) : res py_error A :=
  match r with Ok a => Ok a | Err _ => k | Panic => Panic end.

(** [PreTokenizedInputSequence], tokenizer.rs:386-411. *)
Definition pretok_input (o : pyobj) : res py_error (list str) :=
  or_else (array_unicode o)
  (or_else (array_str o)
  (or_else (match o with PyList l => py_strings l | _ => Err EType end)
  (or_else (match o with PyTuple l => py_strings l | _ => Err EType end)
  (Err EType)))).

(** [encode] and [build_single_owned_encode_input] take one of the two. *)
Definition sequence_input (pre : bool) (o : pyobj) : res py_error input_sequence :=
  if pre then let! ws := pretok_input o in Ok (PreTokenized ws) else let! s := text_input o in Ok (Raw s).

(** [TextEncodeInput], tokenizer.rs:418-441, and [PreTokenizedEncodeInput],
    tokenizer.rs:447-472: a sequence, else a tuple of two, else two items (where the
    exception of an item is not caught). *)
Definition pair_of (pre : bool) (a b : pyobj) : res py_error encode_input :=
  let! x := sequence_input pre a in let! y := sequence_input pre b in Ok (Dual x y).
Definition encode_input_of (pre : bool) (o : pyobj) : res py_error encode_input :=
  or_else (let! x := sequence_input pre o in Ok (Single x))
  (or_else (match o with PyTuple [a; b] => pair_of pre a b | _ => Err EType end)
  (match py_items o with
   | Some [a; b] => pair_of pre a b
   | _ => Err EType
   end)).

(** [extract_pretok_seq], tokenizer.rs:573-589. *)
Definition owned_words (o : pyobj) : res py_error (list str) :=
  or_else (array_unicode o)
  (or_else (array_str o)
  (match o with PyList l | PyTuple l => py_strings l | _ => Err EType end)).
Definition owned_sequence (pre : bool) (o : pyobj) : res py_error input_sequence :=
  if pre then let! ws := owned_words o in Ok (PreTokenized ws) else let! s := py_string o in Ok (Raw s).
Definition owned_pair (pre : bool) (a b : pyobj) : res py_error encode_input :=
  let! x := owned_sequence pre a in let! y := owned_sequence pre b in Ok (Dual x y).
Definition is_str (o : pyobj) : bool := match o with PyStr _ => true | _ => false end.
(** One item of [build_owned_encode_inputs], tokenizer.rs:592-647. *)
Definition owned_item (pre : bool) (o : pyobj) : res py_error encode_input :=
  match o with
  | PyTuple [a; b] => owned_pair pre a b
  | PyList [a; b] =>
      if pre || (is_str a && is_str b) then owned_pair pre a b
      else let! x := owned_sequence pre o in Ok (Single x)
  | _ => let! x := owned_sequence pre o in Ok (Single x)
  end.

(** [encode], tokenizer.rs:1182-1217. *)
Definition py_encode (t : tokenizer) (sequence : pyobj) (pair : option pyobj) (pre add : bool) : res py_error encoding :=
  let! x := sequence_input pre sequence in
  let! input := match pair with Some p => let! y := sequence_input pre p in Ok (Dual x y) | None => Ok (Single x) end in
  to_py (encode t OChar input add).
(** [async_encode], tokenizer.rs:1249-1277, with [build_single_owned_encode_input],
    tokenizer.rs:650-675. *)
Definition py_async_encode (t : tokenizer) (sequence : pyobj) (pair : option pyobj) (pre add : bool) : res py_error encoding :=
  let! x := owned_sequence pre sequence in
  let! input := match pair with Some p => let! y := owned_sequence pre p in Ok (Dual x y) | None => Ok (Single x) end in
  to_py (encode t OByte input add).

(** [encode_batch], tokenizer.rs:1312-1341, and [encode_batch_fast],
    tokenizer.rs:1433-1462. *)
Definition py_encode_batch (fast : bool) (t : tokenizer) (input : list pyobj) (pre add : bool) (schedule : list nat) : res py_error (list encoding) :=
  let! items := map_res (encode_input_of pre) input in
  to_py (encode_batch t (if fast then ONone else OChar) items add schedule).
(** [async_encode_batch], tokenizer.rs:1373-1401, and [async_encode_batch_fast],
    tokenizer.rs:1495-1527. *)
Definition py_async_encode_batch (fast : bool) (t : tokenizer) (input : list pyobj) (pre add : bool) (schedule : list nat) : res py_error (list encoding) :=
  let! items := map_res (owned_item pre) input in
  to_py (encode_batch t (if fast then ONone else OChar) items add schedule).
