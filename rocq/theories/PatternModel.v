(** Model of the [Pattern] implementations.
    Source: /repo/tokenizers/src/tokenizer/pattern.rs. *)
From Verif Require Import Base StrBytes.

(** The closure and the final push of [impl Pattern for F], pattern.rs:92-120. *)
Fixpoint pred_loop (p : char -> bool) (l : list (nat * char)) (last_offset last_seen : nat)
  : list (offsets_t * bool) :=
  match l with
  | [] => if last_offset <? last_seen then [((last_offset, last_seen), false)] else []
  | (b, c) :: l' =>
      if p c then
        (if last_offset <? b then [((last_offset, b), false)] else [])
          ++ ((b, b + len_utf8 c), true) :: pred_loop p l' (b + len_utf8 c) (b + len_utf8 c)
      else pred_loop p l' last_offset (b + len_utf8 c)
  end.

(** [impl<F: Fn(char) -> bool> Pattern for F], pattern.rs:81-123. *)
Definition pred_find_matches (p : char -> bool) (inside : str) : list (offsets_t * bool) :=
  if is_nil inside then [((0, 0), false)] else pred_loop p (char_indices 0 inside) 0 0.

(** [impl Pattern for char], pattern.rs:14-19. *)
Definition char_find_matches (c : char) (inside : str) : list (offsets_t * bool) :=
  pred_find_matches (fun c' => N.eqb c' c) inside.

(** The loop of pattern.rs:46-59 and 68-81 over the matches of the engine. *)
Fixpoint regex_loop (len prev : nat) (ms : list offsets_t) : list (offsets_t * bool) :=
  match ms with
  | [] => if prev =? len then [] else [((prev, len), false)]
  | (s, e) :: ms' =>
      (if prev =? s then [] else [((prev, s), false)]) ++ ((s, e), true) :: regex_loop len e ms'
  end.

(** [impl Pattern for &Regex] and [&SysRegex], pattern.rs:41-83.  [find_iter] is
    the external engine: an arbitrary function. *)
Definition regex_find_matches (find_iter : str -> list offsets_t) (inside : str)
  : list (offsets_t * bool) :=
  if is_nil inside then [((0, 0), false)] else regex_loop (blen inside) 0 (find_iter inside).

(** [find_iter] of the regex built from an escaped literal (regex crate):
    leftmost, non-overlapping occurrences.  [skip] counts the characters of the
    current match still to be passed. *)
Fixpoint is_prefix (p s : str) : bool :=
  match p, s with
  | [], _ => true
  | c :: p', d :: s' => N.eqb c d && is_prefix p' s'
  | _ :: _, [] => false
  end.

Fixpoint literal_scan (pat : str) (b skip : nat) (s : str) : list offsets_t :=
  match s with
  | [] => []
  | c :: s' =>
      match skip with
      | S k => literal_scan pat (b + len_utf8 c) k s'
      | 0 => if is_prefix pat s
             then (b, b + blen pat) :: literal_scan pat (b + len_utf8 c) (length pat - 1) s'
             else literal_scan pat (b + len_utf8 c) 0 s'
      end
  end.

(** [impl Pattern for &str] (and [&String]), pattern.rs:21-39.  The empty
    pattern returns the number of characters, not of bytes, as end. *)
Definition str_find_matches (pat inside : str) : list (offsets_t * bool) :=
  if is_nil pat then [((0, length inside), false)]
  else regex_find_matches (literal_scan pat 0 0) inside.

(** [Invert], pattern.rs:125-140. *)
Definition invert_matches (ms : list (offsets_t * bool)) : list (offsets_t * bool) :=
  map (fun m => (fst m, negb (snd m))) ms.
