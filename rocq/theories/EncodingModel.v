(** Model of the [Encoding] data structure.
    Source: /repo/tokenizers/src/tokenizer/encoding.rs. *)
From Verif Require Import Base.

(** [Token], tokenizer/mod.rs:114-126. *)
Record token := mkTok { t_id : N; t_value : str; t_offsets : offsets_t }.

(** [struct Encoding], encoding.rs:11-31.  [sequence_ranges] is a hash map from
    sequence id to token range; it is modelled by an association list without
    duplicate keys whose order stands for the (unspecified) iteration order. *)
Inductive encoding := mkEnc {
  ids : list N;
  type_ids : list N;
  tokens : list str;
  words : list (option N);
  offsets : list offsets_t;
  special_tokens_mask : list N;
  attention_mask : list N;
  overflowing : list encoding;
  sequence_ranges : list (nat * (nat * nat))
}.

(** [TruncationDirection], utils/truncation.rs:7-11; [PaddingDirection],
    utils/padding.rs:7-10. *)
Inductive direction := DLeft | DRight.

(** [Encoding::default()] / [Encoding::with_capacity(_)], encoding.rs:58-70. *)
Definition empty_enc : encoding := mkEnc [] [] [] [] [] [] [] [] [].

(** [Encoding::len], encoding.rs:107-109: the length of [ids]. *)
Definition enc_len (e : encoding) : nat := length (ids e).

(** [Encoding::from_tokens], encoding.rs:72-99. *)
Definition from_tokens (ts : list token) (type_id : N) : encoding :=
  let n := length ts in
  mkEnc (map t_id ts) (repeat type_id n) (map t_value ts) (repeat None n)
        (map t_offsets ts) (repeat 0%N n) (repeat 1%N n) [] [].

(** Hash-map insertion: overwrite or add (std HashMap::insert). *)
Fixpoint ranges_insert (k : nat) (r : nat * nat) (m : list (nat * (nat * nat))) :=
  match m with
  | [] => [(k, r)]
  | (k', r') :: m' => if k =? k' then (k, r) :: m' else (k', r') :: ranges_insert k r m'
  end.

Fixpoint ranges_get (k : nat) (m : list (nat * (nat * nat))) : option (nat * nat) :=
  match m with
  | [] => None
  | (k', r) :: m' => if k =? k' then Some r else ranges_get k m'
  end.

(** [n_sequences], encoding.rs:112-118. *)
Definition n_sequences (e : encoding) : nat :=
  match sequence_ranges e with [] => 1 | m => length m end.

Definition set_ranges (e : encoding) m : encoding :=
  mkEnc (ids e) (type_ids e) (tokens e) (words e) (offsets e)
        (special_tokens_mask e) (attention_mask e) (overflowing e) m.

Definition set_overflowing (e : encoding) o : encoding :=
  mkEnc (ids e) (type_ids e) (tokens e) (words e) (offsets e)
        (special_tokens_mask e) (attention_mask e) o (sequence_ranges e).

(** [set_type_ids], encoding.rs:155-157. *)
Definition set_type_ids (e : encoding) t : encoding :=
  mkEnc (ids e) t (tokens e) (words e) (offsets e)
        (special_tokens_mask e) (attention_mask e) (overflowing e) (sequence_ranges e).

Definition set_offsets (e : encoding) o : encoding :=
  mkEnc (ids e) (type_ids e) (tokens e) (words e) o
        (special_tokens_mask e) (attention_mask e) (overflowing e) (sequence_ranges e).

(** [set_sequence_id], encoding.rs:121-123. *)
Definition set_sequence_id (e : encoding) (s : nat) : encoding :=
  set_ranges e (ranges_insert s (0, enc_len e) (sequence_ranges e)).

(** [sequence_range], encoding.rs:204-209. *)
Definition sequence_range (e : encoding) (s : nat) : nat * nat :=
  match ranges_get s (sequence_ranges e) with
  | Some r => r
  | None => (0, enc_len e)
  end.

(** [get_sequence_ids], encoding.rs:137-145.  [Vec::splice(range, n copies)]
    panics when [start > end] or [end > len]; [Range::len] is 0 when inverted. *)
Definition splice_const {A} (l : list A) (a b : nat) (x : A) : res unit (list A) :=
  if (a <=? b) && (b <=? length l)
  then Ok (firstn a l ++ repeat x (b - a) ++ skipn b l) else Panic.

Fixpoint sequence_ids_loop (e : encoding) (seqs : list nat) (acc : list (option nat))
  : res unit (list (option nat)) :=
  match seqs with
  | [] => Ok acc
  | s :: rest =>
      let '(a, b) := sequence_range e s in
      let! acc' := splice_const acc a b (Some s) in
      sequence_ids_loop e rest acc'
  end.

Definition get_sequence_ids (e : encoding) : res unit (list (option nat)) :=
  sequence_ids_loop e (seq 0 (n_sequences e)) (repeat None (enc_len e)).

(** [token_to_sequence], encoding.rs:212-226.  Note the comparison
    [token > self.len()], which lets [token = len] through. *)
Definition in_range (r : nat * nat) (i : nat) : bool := (fst r <=? i) && (i <? snd r).

Fixpoint find_range (i : nat) (m : list (nat * (nat * nat))) : option nat :=
  match m with
  | [] => None
  | (s, r) :: m' => if in_range r i then Some s else find_range i m'
  end.

Definition token_to_sequence (e : encoding) (i : nat) : option nat :=
  if enc_len e <? i then None
  else match sequence_ranges e with
       | [] => Some 0
       | m => find_range i m
       end.

(** [Option<u32>] ordering used by [**w <= Some(word)] in encoding.rs:238:
    [None < Some _]. *)
Definition word_le (w : option N) (word : N) : bool :=
  match w with None => true | Some x => N.leb x word end.

Definition word_is (w : option N) (word : N) : bool :=
  match w with None => false | Some x => N.eqb x word end.

(** The [for_each] closure of encoding.rs:240-247, run over the taken prefix;
    the two comparisons are those of [Option<usize>]. *)
Fixpoint word_scan (ws : list (option N)) (word : N) (i : nat)
         (st : option nat * option nat) : option nat * option nat :=
  match ws with
  | [] => st
  | w :: ws' =>
      if word_le w word then
        let '(start, fin) := st in
        if word_is w word then
          let start' := match start with
                        | None => Some i
                        | Some s => if i <? s then Some i else Some s
                        end in
          let fin' := match fin with
                      | None => Some (i + 1)
                      | Some f => if f <=? i then Some (i + 1) else Some f
                      end in
          word_scan ws' word (i + 1) (start', fin')
        else word_scan ws' word (i + 1) st
      else st
  end.

(** [word_to_tokens], encoding.rs:230-254. *)
Definition word_to_tokens (e : encoding) (word : N) (s : nat) : option (nat * nat) :=
  let '(a, b) := sequence_range e s in
  match get_range (words e) a b with
  | None => None
  | Some ws =>
      match word_scan ws word 0 (None, None) with
      | (Some st, Some fi) => Some (a + st, a + fi)
      | _ => None
      end
  end.

(** [word_to_chars], encoding.rs:257-266 (indexing panics when out of range). *)
Definition word_to_chars (e : encoding) (word : N) (s : nat) : res unit (option offsets_t) :=
  match word_to_tokens e word s with
  | None => Ok None
  | Some (st, fi) =>
      if fi =? 0 then Ok None
      else match nth_error (offsets e) st, nth_error (offsets e) (fi - 1) with
           | Some o1, Some o2 => Ok (Some (fst o1, snd o2))
           | _, _ => Panic
           end
  end.

(** [token_to_chars], encoding.rs:269-274. *)
Definition token_to_chars (e : encoding) (i : nat) : option (nat * offsets_t) :=
  match token_to_sequence e i, nth_error (offsets e) i with
  | Some s, Some o => Some (s, o)
  | _, _ => None
  end.

(** [token_to_word], encoding.rs:277-282. *)
Definition token_to_word (e : encoding) (i : nat) : option (nat * N) :=
  match token_to_sequence e i, nth_error (words e) i with
  | Some s, Some (Some w) => Some (s, w)
  | _, _ => None
  end.

(** [Iterator::position] with the predicate of encoding.rs:291. *)
Fixpoint position_containing (os : list offsets_t) (pos : nat) (i : nat) : option nat :=
  match os with
  | [] => None
  | (st, en) :: os' =>
      if (st <=? pos) && (pos <? en) then Some i else position_containing os' pos (i + 1)
  end.

(** [char_to_token], encoding.rs:285-293. *)
Definition char_to_token (e : encoding) (pos : nat) (s : nat) : option nat :=
  let '(a, b) := sequence_range e s in
  match get_range (offsets e) a b with
  | None => None
  | Some os => match position_containing os pos 0 with
               | Some p => Some (a + p)
               | None => None
               end
  end.

(** [char_to_word], encoding.rs:296-302. *)
Definition char_to_word (e : encoding) (pos : nat) (s : nat) : option N :=
  match char_to_token e pos s with
  | None => None
  | Some t => match token_to_word e t with
              | Some (_, w) => Some w
              | None => None
              end
  end.

(** ** Truncation, encoding.rs:307-388 *)

(** [(0..n).step_by(k)] for [k > 0]: 0, k, 2k, ... below n. *)
Definition step_by (n k : nat) : list nat := map (fun i => i * k) (seq 0 ((n + k - 1) / k)).

(** The [filter_map] closure for [Right], encoding.rs:327-338. *)
Fixpoint right_parts (len max_len : nat) (starts : list nat) (ended : bool) : list (nat * nat) :=
  match starts with
  | [] => []
  | start :: rest =>
      if ended then right_parts len max_len rest ended
      else let stop := Nat.min (start + max_len) len in
           (start, stop) :: right_parts len max_len rest (stop =? len)
  end.

(** The [filter_map] closure for [Left], encoding.rs:339-352; the i-th element
    of [(0..n).rev().step_by(k)] is [n - 1 - i*k]. *)
Fixpoint left_parts (max_len : nat) (stops : list nat) (ended : bool) : list (nat * nat) :=
  match stops with
  | [] => []
  | stop0 :: rest =>
      let stop := stop0 + 1 in
      let start := stop - max_len in
      if (start <? stop) && negb ended then (start, stop) :: left_parts max_len rest (start =? 0)
      else left_parts max_len rest ended
  end.

Definition parts_ranges (len max_len stride : nat) (d : direction) : list (nat * nat) :=
  let offset := max_len - stride in
  match d with
  | DRight => right_parts len max_len (step_by len offset) false
  | DLeft => left_parts max_len (map (fun i => len - 1 - i) (step_by len offset)) false
  end.

(** The struct literal of encoding.rs:357-367 and 375-385: every per-token
    array is sliced at the same positions (each slice may panic). *)
Definition cut (e : encoding) (r : nat * nat) : res unit encoding :=
  let '(a, b) := r in
  let! i := slice (ids e) a b in
  let! ty := slice (type_ids e) a b in
  let! tk := slice (tokens e) a b in
  let! w := slice (words e) a b in
  let! o := slice (offsets e) a b in
  let! sm := slice (special_tokens_mask e) a b in
  let! am := slice (attention_mask e) a b in
  Ok (mkEnc i ty tk w o sm am [] []).

(** [Encoding::truncate], encoding.rs:307-388. *)
Definition truncate (e : encoding) (max_len stride : nat) (d : direction) : res unit encoding :=
  let len := length (ids e) in
  if len <=? max_len then Ok e
  else if max_len =? 0 then Ok (set_overflowing empty_enc [e])
  else if negb (stride <? max_len) then Panic
  else match parts_ranges len max_len stride d with
       | [] => Panic
       | r :: rs =>
           let! main := cut e r in
           let! rest := map_res (cut e) rs in
           Ok (set_overflowing main rest)
       end.

(** ** Merging, encoding.rs:391-463 *)

(** encoding.rs:449-459. *)
Definition starting_offset (growing : bool) (os : list offsets_t) : nat :=
  if growing then match rev os with [] => 0 | o :: _ => snd o end else 0.

Definition shift_offsets (k : nat) (os : list offsets_t) : list offsets_t :=
  map (fun o => (fst o + k, snd o + k)) os.

(** encoding.rs:437-443: [extend] inserts the shifted ranges one by one. *)
Definition merge_ranges (n : nat) (m1 m2 : list (nat * (nat * nat))) :=
  fold_left (fun m kr => ranges_insert (fst kr) (n + fst (snd kr), n + snd (snd kr)) m) m2 m1.

(** encoding.rs:435-462 without the overflowing part. *)
Definition merge_main (growing : bool) (a b : encoding) (over : list encoding) : encoding :=
  mkEnc (ids a ++ ids b) (type_ids a ++ type_ids b) (tokens a ++ tokens b)
        (words a ++ words b)
        (offsets a ++ shift_offsets (starting_offset growing (offsets a)) (offsets b))
        (special_tokens_mask a ++ special_tokens_mask b)
        (attention_mask a ++ attention_mask b)
        over
        (merge_ranges (enc_len a) (sequence_ranges a) (sequence_ranges b)).

(** [merge_with], encoding.rs:408-463.  The recursion first descends in the
    overflowing of [self] (outer fixpoint), then in that of [pair] (inner). *)
Fixpoint merge_with (growing : bool) (self : encoding) : encoding -> encoding :=
  fix inner (pair : encoding) : encoding :=
    merge_main growing self pair
      (flat_map (fun self_o =>
                   merge_with growing self_o pair
                   :: map (fun other_o => merge_with growing self_o other_o) (overflowing pair))
                (overflowing self)
       ++ map inner (overflowing pair)).

(** [Encoding::merge], encoding.rs:391-405. *)
Definition merge (growing : bool) (l : list encoding) : encoding :=
  fold_left (merge_with growing) l empty_enc.

(** ** Padding, encoding.rs:465-532 *)

Definition shift_ranges (k : nat) (m : list (nat * (nat * nat))) :=
  map (fun kr => (fst kr, (fst (snd kr) + k, snd (snd kr) + k))) m.

(** encoding.rs:478-531, for one encoding whose overflowing part was already
    handled. *)
Definition pad_one (target : nat) (pad_id pad_type : N) (pad_tok : str) (d : direction)
           (e : encoding) : encoding :=
  if target <=? length (ids e) then e
  else
    let n := target - length (ids e) in
    match d with
    | DLeft =>
        mkEnc (repeat pad_id n ++ ids e) (repeat pad_type n ++ type_ids e)
              (repeat pad_tok n ++ tokens e) (repeat None n ++ words e)
              (repeat (0, 0) n ++ offsets e) (repeat 1%N n ++ special_tokens_mask e)
              (repeat 0%N n ++ attention_mask e) (overflowing e)
              (shift_ranges n (sequence_ranges e))
    | DRight =>
        mkEnc (ids e ++ repeat pad_id n) (type_ids e ++ repeat pad_type n)
              (tokens e ++ repeat pad_tok n) (words e ++ repeat None n)
              (offsets e ++ repeat (0, 0) n) (special_tokens_mask e ++ repeat 1%N n)
              (attention_mask e ++ repeat 0%N n) (overflowing e)
              (sequence_ranges e)
    end.

(** [Encoding::pad], encoding.rs:465-532 (the parallel iteration over the
    overflowing encodings is a map: each element is only touched by its own
    closure). *)
Fixpoint pad (target : nat) (pad_id pad_type : N) (pad_tok : str) (d : direction)
         (e : encoding) : encoding :=
  pad_one target pad_id pad_type pad_tok d
    (set_overflowing e (map (pad target pad_id pad_type pad_tok d) (overflowing e))).

(** [FromIterator<(u32, String, (usize, usize), Option<u32>, u32)>],
    encoding.rs:541-562. *)
Definition enc_row := (N * str * offsets_t * option N * N)%type.

Definition from_rows (l : list enc_row) : encoding :=
  mkEnc (map (fun r => let '(id, _, _, _, _) := r in id) l)
        (map (fun r => let '(_, _, _, _, ty) := r in ty) l)
        (map (fun r => let '(_, tk, _, _, _) := r in tk) l)
        (map (fun r => let '(_, _, _, w, _) := r in w) l)
        (map (fun r => let '(_, _, o, _, _) := r in o) l)
        (map (fun _ => 0%N) l) (map (fun _ => 1%N) l) [] [].

(** ** Histories of operations on an encoding (test driver for invariants, not a
    definition of the repository).  [set_type_ids] takes an arbitrary vector in
    Rust; its only callers (processors) pass one of the encoding's length, which
    the theorems state as a hypothesis. *)
Inductive enc_op :=
| OpTruncate (max_len stride : nat) (d : direction)
| OpPad (target : nat) (pad_id pad_type : N) (pad_tok : str) (d : direction)
| OpMergeWith (growing : bool) (pair : encoding)
| OpMergeBefore (growing : bool) (first : encoding)
| OpSetSequenceId (s : nat)
| OpSetTypeId (t : N)
| OpTakeOverflowing.

Definition apply_enc_op (e : encoding) (op : enc_op) : res unit encoding :=
  match op with
  | OpTruncate m s d => truncate e m s d
  | OpPad n i t tk d => Ok (pad n i t tk d e)
  | OpMergeWith g p => Ok (merge_with g e p)
  | OpMergeBefore g p => Ok (merge_with g p e)
  | OpSetSequenceId s => Ok (set_sequence_id e s)
  | OpSetTypeId t => Ok (set_type_ids e (repeat t (enc_len e)))
  | OpTakeOverflowing => Ok (set_overflowing e [])
  end.

Fixpoint run_enc_ops (e : encoding) (ops : list enc_op) : res unit encoding :=
  match ops with
  | [] => Ok e
  | op :: rest => let! e' := apply_enc_op e op in run_enc_ops e' rest
  end.
