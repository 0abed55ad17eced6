(** Specification vocabulary for encodings, independent of the model's
    algorithms: the token table of an encoding, parallel arrays, tilings. *)
From Verif Require Import Base EncodingModel.

(** What a user sees at one token position. *)
Record row := Row {
  r_id : N; r_type : N; r_token : str; r_word : option N; r_off : offsets_t;
  r_special : N; r_attention : N
}.

(** The table of an encoding: one row per position (the arrays are zipped). *)
Definition rows (e : encoding) : list row :=
  map (fun p => let '(i, (ty, (tk, (w, (o, (sm, am)))))) := p in Row i ty tk w o sm am)
      (combine (ids e) (combine (type_ids e) (combine (tokens e) (combine (words e)
         (combine (offsets e) (combine (special_tokens_mask e) (attention_mask e))))))).

(** All per-token arrays have the length of [ids]. *)
Definition same_lengths (e : encoding) : Prop :=
  length (type_ids e) = enc_len e /\ length (tokens e) = enc_len e /\
  length (words e) = enc_len e /\ length (offsets e) = enc_len e /\
  length (special_tokens_mask e) = enc_len e /\ length (attention_mask e) = enc_len e.

(** ... and the same in all overflowing encodings, recursively. *)
Inductive parallel (e : encoding) : Prop :=
| parallel_intro : same_lengths e -> Forall parallel (overflowing e) -> parallel e.

(** [ws] are windows of at most [max] elements that tile [l] from its start:
    - the first window is the first [max] elements;
    - every window but the last has exactly [max] elements;
    - every further window starts with the last [stride] elements of the previous
      one and contributes at least one new element;
    - dropping these shared elements, the windows concatenate to [l]. *)
Definition tiles {A} (max stride : nat) (l : list A) (ws : list (list A)) : Prop :=
  (exists w rest, ws = w :: rest /\ w = firstn max l /\
                  w ++ concat (map (skipn stride) rest) = l) /\
  (forall i x, nth_error ws i = Some x ->
               length x <= max /\ (S i < length ws -> length x = max)) /\
  (forall i x y, nth_error ws i = Some x -> nth_error ws (S i) = Some y ->
                 skipn (max - stride) x = firstn stride y /\ stride < length y).

(** The same, counting from the end of the list. *)
Definition tiles_from_end {A} (max stride : nat) (l : list A) (ws : list (list A)) : Prop :=
  tiles max stride (rev l) (map (@rev A) ws).

(** Sequence ranges are well formed: keys are distinct, ranges lie inside the
    encoding and are pairwise disjoint. *)
Definition disjoint_ranges (r1 r2 : nat * nat) : Prop :=
  forall i, ~ (fst r1 <= i < snd r1 /\ fst r2 <= i < snd r2).

Definition ranges_wf (e : encoding) : Prop :=
  NoDup (map fst (sequence_ranges e)) /\
  (forall s r, In (s, r) (sequence_ranges e) -> fst r <= snd r <= enc_len e) /\
  (forall s1 s2 r1 r2, In (s1, r1) (sequence_ranges e) -> In (s2, r2) (sequence_ranges e) ->
                       s1 <> s2 -> disjoint_ranges r1 r2).

(** The span of input sequence [s]: its recorded range; an encoding without
    ranges has a single sequence 0 covering everything (encoding.rs:28-29). *)
Definition seq_span (e : encoding) (s : nat) (r : nat * nat) : Prop :=
  (sequence_ranges e = [] /\ s = 0 /\ r = (0, enc_len e)) \/
  In (s, r) (sequence_ranges e).

(** Token [i] belongs to input sequence [s]. *)
Definition belongs (e : encoding) (i s : nat) : Prop :=
  exists r, seq_span e s r /\ fst r <= i < snd r.

(** ** Padding *)
Definition pad_row (pad_id pad_type : N) (pad_tok : str) : row :=
  Row pad_id pad_type pad_tok None (0, 0) 1 0.

(** [e'] is [e] padded to [n] tokens on side [d], and so are all its
    overflowing encodings. Shorter targets leave the encoding alone. *)
Inductive padded (n : nat) (p : row) (d : direction) (e e' : encoding) : Prop :=
| padded_intro :
    let missing := n - enc_len e in
    rows e' = match d with
              | DLeft => repeat p missing ++ rows e
              | DRight => rows e ++ repeat p missing
              end ->
    sequence_ranges e' =
      map (fun '(s, (a, b)) => match d with
                             | DLeft => (s, (a + missing, b + missing))
                             | DRight => (s, (a, b))
                             end) (sequence_ranges e) ->
    Forall2 (padded n p d) (overflowing e) (overflowing e') ->
    padded n p d e e'.

(** ** Merging *)
Definition shift_row (k : nat) (r : row) : row :=
  Row (r_id r) (r_type r) (r_token r) (r_word r) (fst (r_off r) + k, snd (r_off r) + k)
      (r_special r) (r_attention r).

(** End of the last offset of a table, 0 for an empty one. *)
Definition last_end (l : list row) : nat := snd (r_off (last l (Row 0 0 [] None (0, 0) 0 0))).

(** Juxtaposition of two token tables, offsets of the second one either kept
    or shifted past the end of the first. *)
Definition juxtapose (growing : bool) (l1 l2 : list row) : list row :=
  l1 ++ (if growing then map (shift_row (last_end l1)) l2 else l2).

(** A range recorded for a sequence. *)
Definition span_of (e : encoding) (s : nat) (r : nat * nat) : Prop := In (s, r) (sequence_ranges e).

(** ** Lookups *)
(** Position [pos] lies inside the offsets [o]. *)
Definition covers (o : offsets_t) (pos : nat) : Prop := fst o <= pos < snd o.

(** Word indices never decrease along the tokens of a span (tokens without a
    word are allowed anywhere). *)
Definition words_sorted (e : encoding) (r : nat * nat) : Prop :=
  forall i j wi wj, fst r <= i -> i <= j -> j < snd r ->
    nth_error (words e) i = Some (Some wi) -> nth_error (words e) j = Some (Some wj) ->
    (wi <= wj)%N.

(** ** Pair truncation *)
(** What is kept of a table truncated to [n] rows in direction [d]. *)
Definition kept {A} (d : direction) (n : nat) (l : list A) : list A :=
  match d with DRight => firstn n l | DLeft => skipn (length l - n) l end.

(** An optional second sequence: its table, and its arrays being parallel. *)
Definition opt_rows (p : option encoding) : list row :=
  match p with Some e => rows e | None => [] end.

Definition opt_parallel (p : option encoding) : Prop :=
  match p with Some e => parallel e | None => True end.
