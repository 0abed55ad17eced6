(** Model of [NormalizedString].
    Source: /repo/tokenizers/src/tokenizer/normalizer.rs. *)
From Coq Require Export ZArith.
From Verif Require Import Base StrBytes.

(** [struct NormalizedString], normalizer.rs:104-117. *)
Record nstring := mkN {
  n_original : str;
  n_normalized : str;
  n_alignments : list (nat * nat);
  n_shift : nat
}.

(** [std::ops::Bound<usize>]. *)
Inductive bound := Unbounded | Included (n : nat) | Excluded (n : nat).

(** [enum Range<T>], normalizer.rs:18-21, with the two bounds of [T]. *)
Inductive nrange :=
| ROriginal (s e : bound)
| RNormalized (s e : bound).

(** [Range::into_full_range], normalizer.rs:56-71. *)
Definition full_range (s e : bound) (max_len : nat) : nat * nat :=
  (match s with Unbounded => 0 | Included i => i | Excluded i => i + 1 end,
   match e with Unbounded => max_len | Included i => i + 1 | Excluded i => i end).

(** [a..b] as a pair of bounds. *)
Definition rn (a b : nat) : nrange := RNormalized (Included a) (Excluded b).
Definition ro (a b : nat) : nrange := ROriginal (Included a) (Excluded b).

(** [From<String>], normalizer.rs:998-1014. *)
Fixpoint identity_alignments (b : nat) (s : str) : list (nat * nat) :=
  match s with
  | [] => []
  | c :: s' => repeat (b, b + len_utf8 c) (len_utf8 c) ++ identity_alignments (b + len_utf8 c) s'
  end.

Definition nfrom (s : str) : nstring := mkN s s (identity_alignments 0 s) 0.

(** [len], [len_original], [offsets_original], [is_empty],
    normalizer.rs:838-850 and 145-150. *)
Definition n_len (ns : nstring) : nat := blen (n_normalized ns).
Definition n_len_original (ns : nstring) : nat := blen (n_original ns).
Definition offsets_original (ns : nstring) : offsets_t :=
  (n_shift ns, n_shift ns + n_len_original ns).

(** [expand_alignments], normalizer.rs:905-913. *)
Definition expand_alignments (al : list (nat * nat)) : option (nat * nat) :=
  match al with
  | [] => None
  | a :: _ => Some (fst a, snd (last al a))
  end.

(** The loop of normalizer.rs:186-201 from index [i]. *)
Fixpoint conv_loop (ts te : nat) (al : list (nat * nat)) (i : nat) (start fin : option nat)
  : option nat * option nat :=
  match al with
  | [] => (start, fin)
  | a :: al' =>
      if snd a <=? te then
        let start' := match start with
                      | None => if ts <=? fst a
                                then (if fst a =? snd a then None else Some i)
                                else None
                      | Some s => Some s
                      end in
        let fin' := if snd a <=? te then Some (i + 1) else fin in
        conv_loop ts te al' (i + 1) start' fin'
      else (start, fin)
  end.

(** [convert_offsets], normalizer.rs:156-215.  The two "0..0 on an empty
    string" cases (lines 177-183) come after the test [start == end] that
    already returned, so they are unreachable; they are kept. *)
Definition convert_offsets (ns : nstring) (r : nrange) : option (nat * nat) :=
  let len_original := n_len_original ns in
  let len_normalized := n_len ns in
  let '((ts, te), original) := match r with
                               | ROriginal s e => (full_range s e len_original, true)
                               | RNormalized s e => (full_range s e len_normalized, false)
                               end in
  if ts =? te then Some (ts, te)
  else if te <? ts then None
  else if original && is_nil (n_original ns) && (ts =? 0) && (te =? 0) then Some (0, len_normalized)
  else if negb original && is_nil (n_normalized ns) && (ts =? 0) && (te =? 0) then Some (0, len_original)
  else if original then
    match conv_loop ts te (n_alignments ns) 0 None None with
    | (Some s, None) => Some (s, s)
    | (None, Some e) => Some (e, e)
    | (Some s, Some e) => Some (s, e)
    | (None, None) => None
    end
  else match get_range (n_alignments ns) ts te with
       | None => None
       | Some al => expand_alignments al
       end.

(** [get_range], [get_range_original], normalizer.rs:218-239. *)
Definition n_get_range (ns : nstring) (r : nrange) : option str :=
  match r with
  | ROriginal _ _ => match convert_offsets ns r with
                     | Some (a, b) => str_get (n_normalized ns) a b
                     | None => None
                     end
  | RNormalized s e => let '(a, b) := full_range s e (n_len ns) in str_get (n_normalized ns) a b
  end.

Definition n_get_range_original (ns : nstring) (r : nrange) : option str :=
  match r with
  | ROriginal s e => let '(a, b) := full_range s e (n_len_original ns) in
                     str_get (n_original ns) a b
  | RNormalized _ _ => match convert_offsets ns r with
                       | Some (a, b) => str_get (n_original ns) a b
                       | None => None
                       end
  end.

(** [validate_range], normalizer.rs:242-268. *)
Definition validate_range (ns : nstring) (r : nrange) : option nrange :=
  match r with
  | ROriginal s e =>
      let '(a, b) := full_range s e (n_len_original ns) in
      if is_boundary (n_original ns) a && is_boundary (n_original ns) b then Some (ro a b) else None
  | RNormalized s e =>
      let '(a, b) := full_range s e (n_len ns) in
      if is_boundary (n_normalized ns) a && is_boundary (n_normalized ns) b then Some (rn a b) else None
  end.

(** The subtraction of normalizer.rs:300: underflow of [usize] is a panic. *)
Definition shift_alignment (k : nat) (a : nat * nat) : res unit (nat * nat) :=
  if (k <=? fst a) && (k <=? snd a) then Ok (fst a - k, snd a - k) else Panic.

Definition unwrap_or_default (o : option str) : str :=
  match o with Some s => s | None => [] end.

(** [slice], normalizer.rs:272-304.  [Err tt] stands for [None]. *)
Definition n_slice (ns : nstring) (r : nrange) : res unit nstring :=
  match validate_range ns r with
  | None => Err tt
  | Some fr =>
      match convert_offsets ns fr with
      | None => Err tt
      | Some conv =>
          let '(nr, or) := match fr with
                           | ROriginal s e => (conv, full_range s e (n_len_original ns))
                           | RNormalized s e => (full_range s e (n_len ns), conv)
                           end in
          match get_range (n_alignments ns) (fst nr) (snd nr) with
          | None => Err tt
          | Some al =>
              let! al' := map_res (shift_alignment (fst or)) al in
              Ok (mkN (unwrap_or_default (n_get_range_original ns fr))
                      (unwrap_or_default (n_get_range ns fr))
                      al' (n_shift ns + fst or))
          end
      end
  end.

(** The closure mapped over [dest] in [transform_range], normalizer.rs:349-411:
    [offset] is the running byte offset, [rest] the not yet consumed replaced
    characters.  Returns the new alignments, one per byte. *)
Fixpoint transform_loop (al : list (nat * nat)) (dest : list (char * Z)) (offset : nat) (rest : str)
  : res unit (list (nat * nat)) :=
  match dest with
  | [] => Ok []
  | (c, ch) :: dest' =>
      let! align := if (0 <? ch)%Z
                    then (if offset <? 1 then Ok (0, 0) else of_option (nth_error al (offset - 1)))
                    else of_option (nth_error al offset) in
      let '(replaced_size, rest1) :=
        if (0 <? ch)%Z then (0, rest)
        else match rest with
             | [] => (0, [])
             | r :: rest' => (len_utf8 r, rest')
             end in
      let k := if (ch <? 0)%Z then Z.to_nat (- ch) else 0 in
      let! more := transform_loop al dest' (offset + replaced_size + blen (firstn k rest1))
                                  (skipn k rest1) in
      Ok (repeat align (len_utf8 c) ++ more)
  end.

(** [Vec::splice(a..b, new)]: panics when the range is invalid. *)
Definition splice {A} (l : list A) (a b : nat) (new : list A) : res unit (list A) :=
  if (a <=? b) && (b <=? length l) then Ok (firstn a l ++ new ++ skipn b l) else Panic.

(** Replacing the byte range [a..b] of a string, normalizer.rs:419-427: panics
    unless the range is on character boundaries. *)
Definition str_splice (s : str) (a b : nat) (new : str) : res unit str :=
  if a <=? b then
    match bsplit b s with
    | None => Panic
    | Some (p, q) => match bsplit a p with
                     | Some (p', _) => Ok (p' ++ new ++ q)
                     | None => Panic
                     end
    end
  else Panic.

(** [transform_range], normalizer.rs:317-428. *)
Definition transform_range (ns : nstring) (r : nrange) (dest : list (char * Z)) (initial_offset : nat)
  : res unit nstring :=
  let n_range := match r with
                 | RNormalized s e => Some (full_range s e (n_len ns))
                 | ROriginal _ _ => convert_offsets ns r
                 end in
  match n_range with
  | None => Ok ns
  | Some (a, b) =>
      let! replaced := of_option (str_get (n_normalized ns) a b) in
      let initial_removed := blen (firstn initial_offset replaced) in
      let! new_al := transform_loop (n_alignments ns) dest (initial_removed + a)
                                    (skipn initial_offset replaced) in
      let! al := splice (n_alignments ns) a b new_al in
      let! s := str_splice (n_normalized ns) a b (map fst dest) in
      Ok (mkN (n_original ns) s al (n_shift ns))
  end.

(** [transform], normalizer.rs:441-446.  [nfd], [nfkd], [nfc], [nfkc]
    (normalizer.rs:449-470) are [transform ns (oracle (get ns)) 0] where the
    oracle is the external crate unicode_normalization_alignments. *)
Definition transform (ns : nstring) (dest : list (char * Z)) (initial_offset : nat) : res unit nstring :=
  transform_range ns (ROriginal Unbounded Unbounded) dest initial_offset.

(** The loop of [filter], normalizer.rs:479-497: returns the transformations
    and the number of removed leading characters. *)
Fixpoint filter_loop (keep : char -> bool) (s : str) (removed : nat) (last_c : option char)
         (removed_start : nat) : list (char * Z) * nat :=
  match s with
  | [] => (match last_c with Some lc => [(lc, (- Z.of_nat removed)%Z)] | None => [] end, removed_start)
  | c :: s' =>
      if keep c then
        match last_c with
        | Some lc =>
            let '(ts, rs) := filter_loop keep s' 0 (Some c) removed_start in
            ((lc, (- Z.of_nat removed)%Z) :: ts, rs)
        | None => filter_loop keep s' 0 (Some c) removed
        end
      else filter_loop keep s' (removed + 1) last_c removed_start
  end.

(** [filter], normalizer.rs:473-500. *)
Definition n_filter (ns : nstring) (keep : char -> bool) : res unit nstring :=
  let '(ts, rs) := filter_loop keep (n_normalized ns) 0 None 0 in transform ns ts rs.

(** [(i, c) => (c, isize::from(i != 0))] over an enumerated string. *)
Definition first_replaces (s : str) : list (char * Z) :=
  match s with
  | [] => []
  | c :: s' => (c, 0%Z) :: map (fun c => (c, 1%Z)) s'
  end.

(** [prepend], normalizer.rs:503-514. *)
Definition n_prepend (ns : nstring) (s : str) : res unit nstring :=
  match n_normalized ns with
  | [] => Ok ns
  | next :: _ => transform_range ns (rn 0 (len_utf8 next)) (first_replaces s ++ [(next, 1%Z)]) 0
  end.

(** [append], normalizer.rs:517-526. *)
Definition n_append (ns : nstring) (s : str) : res unit nstring :=
  match rev (char_indices 0 (n_normalized ns)) with
  | (b, prev) :: _ =>
      transform_range ns (RNormalized (Included b) Unbounded)
                      ((prev, 0%Z) :: map (fun c => (c, 1%Z)) s) 0
  | [] => transform_range ns (RNormalized Unbounded Unbounded) (map (fun c => (c, 1%Z)) s) 0
  end.

(** [map], normalizer.rs:529-537. *)
Definition n_map (ns : nstring) (f : char -> char) : res unit nstring :=
  transform ns (map (fun c => (f c, 0%Z)) (n_normalized ns)) 0.

(** [lowercase], [uppercase], normalizer.rs:546-567: [f c] is the sequence of
    characters yielded by [char::to_lowercase] / [to_uppercase] (Unicode data,
    an oracle). *)
Definition n_case (ns : nstring) (f : char -> str) : res unit nstring :=
  transform ns (flat_map (fun c => first_replaces (f c)) (n_normalized ns)) 0.

(** [clear], normalizer.rs:677-681.  The initial offset is the byte length,
    used as a number of characters (an over-approximation). *)
Definition n_clear (ns : nstring) : res unit nstring := transform ns [] (n_len ns).

(** [lrstrip], normalizer.rs:800-835, with [char::is_whitespace] as an oracle.
    [usize] subtractions: [count - trailing] and [len - trailing - 1] are only
    evaluated on surviving characters: [count - trailing] cannot underflow as at
    most [count] characters are counted, and [len - trailing - 1] is reached
    only when some character survives, so [trailing < count <= len]. *)
Fixpoint take_while_count (p : char -> bool) (s : str) : nat :=
  match s with
  | [] => 0
  | c :: s' => if p c then S (take_while_count p s') else 0
  end.

Fixpoint strip_loop (i leading trailing count len : nat) (s : str) : list (char * Z) :=
  match s with
  | [] => []
  | c :: s' =>
      let more := strip_loop (i + 1) leading trailing count len s' in
      if (i <? leading) || (count - trailing <=? i) then more
      else if i =? len - trailing - 1 then (c, (- Z.of_nat trailing)%Z) :: more
      else (c, 0%Z) :: more
  end.

Definition n_lrstrip (ns : nstring) (is_ws : char -> bool) (left right : bool) : res unit nstring :=
  let leading := if left then take_while_count is_ws (n_normalized ns) else 0 in
  let trailing := if right then take_while_count is_ws (rev (n_normalized ns)) else 0 in
  if (0 <? leading) || (0 <? trailing) then
    let count := length (n_normalized ns) in
    transform ns (strip_loop 0 leading trailing count (n_len ns) (n_normalized ns)) leading
  else Ok ns.

(** The loop of [replace], normalizer.rs:578-665, over the result of
    [find_matches]; state: last_end, new text and new alignments (built in
    order).  The inner [map] only sees positive changes, so the alignment of
    every inserted byte is that of the byte before [offset] (lines 616-640);
    [removed_chars] is the number of chars of the match (line 583), so
    [initial_removed] is the byte length of the match. *)
Fixpoint replace_loop (ns : nstring) (ms : list (offsets_t * bool)) (content : str) (last_end : nat)
  : res unit (str * list (nat * nat)) :=
  match ms with
  | [] =>
      let! t := of_option (str_get (n_normalized ns) last_end (n_len ns)) in
      let! al := slice (n_alignments ns) last_end (length (n_alignments ns)) in
      Ok (t, al)
  | ((start, fin), is_match) :: ms' =>
      if is_match then
        let! matched := of_option (str_get (n_normalized ns) start fin) in
        let removed_chars := length matched in
        let! before := of_option (str_get (n_normalized ns) last_end start) in
        let! al_before := slice (n_alignments ns) last_end start in
        let initial_removed := blen (firstn removed_chars matched) in
        let! new_al := transform_loop (n_alignments ns) (map (fun c => (c, 1%Z)) content)
                                      (initial_removed + start) (skipn removed_chars matched) in
        let! (t, al) := replace_loop ns ms' content fin in
        Ok (before ++ content ++ t, al_before ++ new_al ++ al)
      else replace_loop ns ms' content last_end
  end.

(** [replace], normalizer.rs:570-674, given the matches of the pattern. *)
Definition n_replace (ns : nstring) (ms : list (offsets_t * bool)) (content : str) : res unit nstring :=
  let! (t, al) := replace_loop ns ms content 0 in
  Ok (mkN (n_original ns) t al (n_shift ns)).

(** [SplitDelimiterBehavior], normalizer.rs:82-88. *)
Inductive behavior := Removed | Isolated | MergedWithPrevious | MergedWithNext | Contiguous.

(** The three folds of [split], normalizer.rs:709-766.  The accumulator vector
    is kept in reverse (its last element first). *)
Fixpoint fold_contiguous (ms : list (offsets_t * bool)) (prev : bool) (acc : list offsets_t)
  : list offsets_t :=
  match ms with
  | [] => acc
  | (o, is_match) :: ms' =>
      let acc' := if Bool.eqb is_match prev then
                    match acc with
                    | l :: rest => (fst l, snd o) :: rest
                    | [] => [o]
                    end
                  else o :: acc in
      fold_contiguous ms' is_match acc'
  end.

Fixpoint fold_previous (ms : list (offsets_t * bool)) (prev : bool) (acc : list offsets_t)
  : list offsets_t :=
  match ms with
  | [] => acc
  | (o, is_match) :: ms' =>
      let acc' := if is_match && negb prev then
                    match acc with
                    | l :: rest => (fst l, snd o) :: rest
                    | [] => [o]
                    end
                  else o :: acc in
      fold_previous ms' is_match acc'
  end.

Fixpoint fold_next (ms : list (offsets_t * bool)) (prev : bool) (acc : list offsets_t)
  : list offsets_t :=
  match ms with
  | [] => acc
  | (o, is_match) :: ms' =>
      let acc' := if is_match && negb prev then
                    match acc with
                    | l :: rest => (fst o, snd l) :: rest
                    | [] => [o]
                    end
                  else o :: acc in
      fold_next ms' is_match acc'
  end.

(** The splits kept (those flagged [remove] are dropped, normalizer.rs:772-781). *)
Definition split_offsets (ms : list (offsets_t * bool)) (b : behavior) : list offsets_t :=
  match b with
  | Isolated => map fst ms
  | Removed => map fst (filter (fun m => negb (snd m)) ms)
  | Contiguous => rev (fold_contiguous ms false [])
  | MergedWithPrevious => rev (fold_previous ms false [])
  (* [matches.reverse()] of a vector built by pushing: our reversed accumulator *)
  | MergedWithNext => fold_next (rev ms) false []
  end.

(** [split], normalizer.rs:694-783; [expect("NormalizedString bad split")]
    panics when the slice is [None]. *)
Definition expect_slice (ns : nstring) (o : offsets_t) : res unit nstring :=
  match n_slice ns (rn (fst o) (snd o)) with
  | Ok x => Ok x
  | Err _ => Panic
  | Panic => Panic
  end.

Definition n_split (ns : nstring) (ms : list (offsets_t * bool)) (b : behavior) : res unit (list nstring) :=
  map_res (expect_slice ns) (split_offsets ms b).

(** [bytes_to_char], normalizer.rs:941-965. *)
Fixpoint btc_loop (l : list (nat * char)) (i rs re : nat) (start fin : option nat)
  : option nat * option nat :=
  match l with
  | [] => (start, fin)
  | (b, c) :: l' =>
      if b <=? re then
        if rs <=? b then
          let start' := if b =? rs then Some i else start in
          let fin1 := if b =? re then Some i else fin in
          let fin2 := if b + len_utf8 c =? re then Some (i + 1) else fin1 in
          btc_loop l' (i + 1) rs re start' fin2
        else btc_loop l' (i + 1) rs re start fin
      else (start, fin)
  end.

Definition pair_opt (p : option nat * option nat) : option (nat * nat) :=
  match p with (Some a, Some b) => Some (a, b) | _ => None end.

Definition bytes_to_char (s : str) (rs re : nat) : option (nat * nat) :=
  let init := if (rs =? 0) && (re =? 0) then Some 0 else None in
  pair_opt (btc_loop (char_indices 0 s) 0 rs re init init).

(** [char_to_bytes], normalizer.rs:968-996.  When [start > end] the subtraction
    [end - start] underflows: a panic. *)
Fixpoint ctb_loop (l : list (nat * char)) (start fin : option nat) : option nat * option nat :=
  match l with
  | [] => (start, fin)
  | (b, c) :: l' =>
      ctb_loop l' (match start with None => Some b | s => s end) (Some (b + len_utf8 c))
  end.

Definition char_to_bytes (s : str) (rs re : nat) : res unit (option (nat * nat)) :=
  let init := if (rs =? 0) && (re =? 0) then Some 0 else None in
  if rs =? re then
    match skipn rs (char_indices 0 s) with
    | (b, _) :: _ => Ok (Some (b, b))
    | [] => Ok (pair_opt (init, init))
    end
  else if re <? rs then Panic
  else Ok (pair_opt (ctb_loop (firstn (re - rs) (skipn rs (char_indices 0 s))) init init)).

(** [get_range_of], normalizer.rs:916-938 (range given by its full bounds). *)
Definition get_range_of (s : str) (a b : nat) : res unit (option str) :=
  let len := length s in
  if (a =? 0) && (b =? 0) then Ok (Some [])
  else if (len <=? a) || (len <? b) || (b <=? a) then Ok None
  else
    let start_b := match nth_error (char_indices 0 s) a with Some (i, _) => i | None => 0 end in
    let end_b := match nth_error (char_indices 0 s) b with Some (i, _) => i | None => blen s end in
    let! m := of_option (str_get s start_b end_b) in Ok (Some m).

(** ** Histories *)
(** The public operations that change a [NormalizedString] in place.
    [MTransform] covers every caller-supplied transformation, in particular the
    four Unicode normalisation forms. *)
Inductive norm_op :=
| MTransformRange (r : nrange) (dest : list (char * Z)) (initial_offset : nat)
| MTransform (dest : list (char * Z)) (initial_offset : nat)
| MFilter (keep : char -> bool)
| MPrepend (s : str)
| MAppend (s : str)
| MMap (f : char -> char)
| MCase (f : char -> str)
| MReplace (find : str -> list (offsets_t * bool)) (content : str)
| MClear
| MStrip (is_ws : char -> bool) (left right : bool)
| MSlice (r : nrange).

(** A failed slice ([None]) leaves the history where it was. *)
Definition apply_norm_op (ns : nstring) (op : norm_op) : res unit nstring :=
  match op with
  | MTransformRange r d k => transform_range ns r d k
  | MTransform d k => transform ns d k
  | MFilter f => n_filter ns f
  | MPrepend s => n_prepend ns s
  | MAppend s => n_append ns s
  | MMap f => n_map ns f
  | MCase f => n_case ns f
  | MReplace find content => n_replace ns (find (n_normalized ns)) content
  | MClear => n_clear ns
  | MStrip w l r => n_lrstrip ns w l r
  | MSlice r => match n_slice ns r with Ok x => Ok x | Err _ => Ok ns | Panic => Panic end
  end.

Fixpoint run_norm_ops (ns : nstring) (ops : list norm_op) : res unit nstring :=
  match ops with
  | [] => Ok ns
  | op :: rest => let! ns' := apply_norm_op ns op in run_norm_ops ns' rest
  end.
