(** Model of the byte-level alphabet and of offset trimming.
    Source: /repo/tokenizers/src/pre_tokenizers/byte_level.rs. *)
From Verif Require Import Base AMap EncodingModel.

(** A byte is a number below 256. *)
Notation byte := N (only parsing).

(** [b'!'..=b'~'] and the like: all bytes from [a] to [b], both included. *)
Definition byte_range (a b : byte) : list byte :=
  map (fun i => (a + N.of_nat i)%N) (seq 0 (N.to_nat (b - a) + 1)).

Definition all_bytes : list byte := byte_range 0 255.

(** The loop of byte_level.rs:25-31: bytes that are not yet in [bs] are mapped to
    256, 257, ... in order. *)
Fixpoint missing_bytes (bs : list byte) (n : N) (todo : list byte) : list (byte * char) :=
  match todo with
  | [] => []
  | b :: rest => if existsb (N.eqb b) bs then missing_bytes bs n rest
                 else (b, (256 + n)%N) :: missing_bytes bs (n + 1) rest
  end.

(** [bytes_char], byte_level.rs:15-40. *)
Definition bytes_char_table : list (byte * char) :=
  let bs := byte_range 33 126 ++ byte_range 161 172 ++ byte_range 174 255 in
  map (fun b => (b, b)) bs ++ missing_bytes bs 0 all_bytes.

(** [BYTES_CHAR[b]], byte_level.rs:48 (indexing a missing key would panic). *)
Definition bytes_char (b : byte) : option char := aget N.eqb b bytes_char_table.

(** [CHAR_BYTES.get(c)], byte_level.rs:49-50: the inverted table; a later
    insertion overwrites an earlier one. *)
Definition char_bytes_table : list (char * byte) :=
  fold_left (fun m p => aset N.eqb (snd p) (fst p) m) bytes_char_table [].

Definition char_bytes (c : char) : option byte := aget N.eqb c char_bytes_table.

(** ** [process_offsets], byte_level.rs:202-234 *)

(** [iter().take_while(f).count()]. *)
Fixpoint count_while {A} (f : A -> bool) (l : list A) : nat :=
  match l with
  | [] => 0
  | x :: l' => if f x then S (count_while f l') else 0
  end.

(** [*c == BYTES_CHAR[&b' '] || c.is_whitespace()], byte_level.rs:206 and 211;
    [is_ws] stands for [char::is_whitespace]. *)
Definition blank (is_ws : char -> bool) (c : char) : bool :=
  match bytes_char 32 with Some g => N.eqb c g | None => false end || is_ws c.

(** The closure of byte_level.rs:203-233 on token number [i]. *)
Definition trim_one (is_ws : char -> bool) (add_prefix_space : bool)
           (i : nat) (tok : str) (o : offsets_t) : offsets_t :=
  let leading := count_while (blank is_ws) tok in
  let trailing := count_while (blank is_ws) (rev tok) in
  let o :=
    if 0 <? leading then
      let is_first := (i =? 0) || (fst o =? 0) in
      let leading := if is_first && add_prefix_space && (leading =? 1) then 0 else leading in
      (Nat.min (fst o + leading) (snd o), snd o)
    else o in
  if (0 <? trailing) && (trailing <=? snd o)
  then (fst o, Nat.max (snd o - trailing) (fst o))
  else o.

(** [tokens.iter().zip(offsets.iter_mut()).enumerate().for_each(..)],
    encoding.rs:191-200: the offsets beyond the shorter list are left alone. *)
Fixpoint trim_loop (is_ws : char -> bool) (aps : bool) (i : nat)
         (toks : list str) (os : list offsets_t) : list offsets_t :=
  match toks, os with
  | t :: toks', o :: os' => trim_one is_ws aps i t o :: trim_loop is_ws aps (S i) toks' os'
  | _, _ => os
  end.

(** [process_offsets], byte_level.rs:202-234. *)
Definition process_offsets (is_ws : char -> bool) (aps : bool) (e : encoding) : encoding :=
  set_offsets e (trim_loop is_ws aps 0 (tokens e) (offsets e)).
