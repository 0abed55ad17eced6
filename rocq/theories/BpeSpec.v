(** What a user expects of the BPE model. *)
From Verif Require Import Base StrBytes Utf8 AMap EncodingModel BpeWordModel BpeWordSpec BpeModel.

(** The result of applying a merge to texts: [b] without the bytes of the prefix. *)
Definition merged_text (prefix : option str) (a b t : str) : Prop :=
  exists p rest, b = p ++ rest /\ blen p = opt_blen prefix /\ t = a ++ rest.

(** The two parts and the result of every merge are in the vocabulary. *)
Definition acceptable (vocab : list (str * N)) (prefix : option str) (merges : list (str * str)) : Prop :=
  forall a b, In (a, b) merges ->
    In a (map fst vocab) /\ In b (map fst vocab) /\
    exists t, merged_text prefix a b t /\ In t (map fst vocab).

(** [(a, b)] is a merge of rank [r] between ids [ia], [ib] giving id [n]. *)
Definition is_merge (vocab : list (str * N)) (prefix : option str) (merges : list (str * str)) (r : nat) (ia ib n : N) : Prop :=
  exists a b t, nth_error merges r = Some (a, b) /\ merged_text prefix a b t /\
    In (a, ia) vocab /\ In (b, ib) vocab /\ In (t, n) vocab.

(** [m] was made by the builder, from a vocabulary where no token appears twice. *)
Definition built (vocab : list (str * N)) (merges : list (str * str)) (prefix : option str) (m : bpe) : Prop :=
  NoDup (map fst vocab) /\
  exists d unk suffix fuse fallback ignore, bpe_build vocab merges d unk prefix suffix fuse fallback ignore = Ok m.

(** Consecutive ranges from [a] to [b]. *)
Fixpoint ranges_from (a : nat) (l : list offsets_t) (b : nat) : Prop :=
  match l with
  | [] => a = b
  | (x, y) :: l' => x = a /\ x < y /\ ranges_from y l' b
  end.

(** Where a character stands: at the start and at the end of the word. *)
Definition known_char (m : bpe) (first last : bool) (c : char) : Prop := b_id m (decorate m first last [c]) <> None.
Definition byte_char (m : bpe) (first last : bool) (c : char) : Prop :=
  b_fallback m = true /\ (forall b, In b (encode_utf8 (decorate m first last [c])) -> b_id m (byte_token b) <> None).
Definition has_unk (m : bpe) : Prop := exists t, b_unk m = Some t /\ b_id m t <> None.

(** Every character gives tokens for exactly its bytes: it is known, or its own
    bytes (no prefix, no suffix added) are, or there is an unknown token. *)
Definition covered (m : bpe) (s : str) : Prop :=
  forall p c q, s = p ++ c :: q ->
    known_char m (is_nil p) (is_nil q) c \/
    (byte_char m (is_nil p) (is_nil q) c /\ decorate m (is_nil p) (is_nil q) [c] = [c]) \/
    (~ byte_char m (is_nil p) (is_nil q) c /\ has_unk m).

(** All the characters of [x] are known where they stand in [pre ++ x ++ post]. *)
Definition all_known (m : bpe) (pre x post : str) : Prop :=
  forall p c q, x = p ++ c :: q -> known_char m (is_nil (pre ++ p)) (is_nil (q ++ post)) c.

(** The text of a piece with the prefix and suffix that its place asks for. *)
Definition in_place (m : bpe) (pre x post : str) : str := decorate m (is_nil pre) (is_nil post) x.

(** The symbols of a word whose characters are all known. *)
Definition char_symbols (m : bpe) (s : str) (l : list (N * nat)) : Prop :=
  length l = length s /\
  forall p c q, s = p ++ c :: q -> exists id,
    In (decorate m (is_nil p) (is_nil q) [c], id) (b_vocab m) /\ nth_error l (length p) = Some (id, len_utf8 c).

(** What a token shows of its symbol: its id and its length in bytes. *)
Definition token_symbol (t : token) : N * nat := (t_id t, snd (t_offsets t) - fst (t_offsets t)).

(** A heap: take out the first of the least entries. *)
Definition before (a b : merge) : bool :=
  N.ltb (mg_rank a) (mg_rank b) || (N.eqb (mg_rank a) (mg_rank b) && (mg_pos a <=? mg_pos b)).
Fixpoint pop_min (q : list merge) : option (merge * list merge) :=
  match q with
  | [] => None
  | e :: q' => match pop_min q' with
               | None => Some (e, [])
               | Some (e', r) => if before e e' then Some (e, q') else Some (e', e :: r)
               end
  end.
