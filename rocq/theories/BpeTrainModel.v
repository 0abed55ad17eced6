(** Model of the BPE trainer.
    Source: /repo/tokenizers/src/models/bpe/trainer.rs and [Word::merge] of
    bpe/word.rs.  Hash maps and sets are lists, whose order stands for the
    arbitrary order of iteration.  [u32] ids, [usize] and [u64] sums are not
    truncated; [i32] counts are: a cast wraps, an addition out of range panics.
    Progress reports are left out. *)
From Verif Require Import Base AMap EncodingModel BpeWordModel BpeModel.
From Coq Require Import ZArith.

(** [struct BpeTrainer], trainer.rs:197-221, of the special tokens only the
    content; the counted words are an argument of training. *)
Record trainer := mkTrainer {
  tr_min_frequency : N; tr_vocab_size : nat; tr_special : list str;
  tr_limit : option nat; tr_initial : list char;
  tr_prefix : option str; tr_suffix : option str; tr_max_length : option nat }.

(** [x < max_token_length], trainer.rs:463: no limit is [usize::MAX]. *)
Definition below (mx : option nat) (n : nat) : bool := match mx with Some m => n <? m | None => true end.

(** [word_to_id] and [id_to_word] of [do_train], trainer.rs:461-462. *)
Record voc := mkVoc { v_ids : list (str * N); v_words : list str }.

(** "if !w2id.contains_key ... push ... insert", trainer.rs:302-305 and others. *)
Definition voc_add (v : voc) (s : str) : voc :=
  if amem str_eqb s (v_ids v) then v
  else mkVoc (aset str_eqb s (N.of_nat (length (v_words v))) (v_ids v)) (v_words v ++ [s]).

(** [add_special_tokens], trainer.rs:295-307. *)
Definition add_special (tr : trainer) (v : voc) : voc := fold_left voc_add (tr_special tr) v.

(** [alphabet] of [compute_alphabet], trainer.rs:316-328. *)
Definition bump (c : char) (n : N) (m : list (char * N)) : list (char * N) :=
  aset N.eqb c (match aget N.eqb c m with Some k => k | None => 0 end + n)%N m.
Definition char_counts (wc : list (str * N)) : list (char * N) :=
  fold_left (fun m wn => fold_left (fun m c => bump c (snd wn) m) (fst wn) m) wc [].
Definition usize_max : N := 18446744073709551615%N.
Definition alphabet (tr : trainer) (wc : list (str * N)) : list (char * N) :=
  fold_left (fun m c => aset N.eqb c usize_max m) (tr_initial tr) (char_counts wc).

(** [sort_unstable_by_key(|k| *k.0 as u32)], trainer.rs:346, where all keys differ. *)
Fixpoint insert_char (c : char) (l : list char) : list char :=
  match l with
  | [] => [c]
  | d :: l' => if N.leb c d then c :: l else d :: insert_char c l'
  end.
Definition sort_chars (l : list char) : list char := fold_right insert_char [] l.

(** An entry of the queue, [struct Merge], trainer.rs:14-19. *)
Record tmerge := mkTm { tm_pair : N * N; tm_count : Z; tm_pos : list nat }.

(** A word: its symbols, by id and length in characters.  [prev] and [next] of
    a [Symbol] are not read by the trainer. *)
Notation tword := (list (N * nat)) (only parsing).

(** [set.insert(i)]. *)
Definition set_add (i : nat) (l : list nat) : list nat := if existsb (Nat.eqb i) l then l else l ++ [i].

(** [as i32] and [+] on [i32]; [as u64] of an [i32]. *)
Definition as_i32 (n : Z) : Z := ((n + 2147483648) mod 4294967296 - 2147483648)%Z.
Definition in_i32 (z : Z) : bool := (Z.leb (-2147483648) z && Z.ltb z 2147483648)%bool.
Definition chk_i32 (z : Z) : res unit Z := if in_i32 z then Ok z else Panic.
Definition as_u64 (z : Z) : Z := if Z.ltb z 0 then (z + 18446744073709551616)%Z else z.

Definition pair_count (pc : list ((N * N) * Z)) (p : N * N) : Z := match aget pair_eqb p pc with Some k => k | None => 0%Z end.
(** [*pair_counts.entry(p).or_default() += d]. *)
Definition pc_add (pc : list ((N * N) * Z)) (p : N * N) (d : Z) : res unit (list ((N * N) * Z)) :=
  let! k := chk_i32 (pair_count pc p + d)%Z in
  Ok (aset pair_eqb p k pc).
(** [where_to_update.entry(p).or_default().insert(i)]. *)
Definition wtu_add (wtu : list ((N * N) * list nat)) (p : N * N) (i : nat) : list ((N * N) * list nat) :=
  aset pair_eqb p (set_add i (match aget pair_eqb p wtu with Some l => l | None => [] end)) wtu.

Notation tables := (list ((N * N) * Z) * list ((N * N) * list nat))%type (only parsing).

(** [word.get_chars().windows(2)], trainer.rs:427. *)
Fixpoint windows (l : list N) : list (N * N) :=
  match l with
  | a :: ((b :: _) as l') => (a, b) :: windows l'
  | _ => []
  end.

(** The closure of [count_pairs], trainer.rs:423-441, adding to given tables:
    the tables of the words are summed by [reduce], in any grouping. *)
Fixpoint count_windows (i : nat) (n : Z) (ps : list (N * N)) (t : tables) : res unit tables :=
  match ps with
  | [] => Ok t
  | p :: ps' => let! pc := pc_add (fst t) p n in count_windows i n ps' (pc, wtu_add (snd t) p i)
  end.

(** [count_pairs], trainer.rs:414-454. *)
Fixpoint count_pairs (i : nat) (words : list tword) (counts : list N) (t : tables) : res unit tables :=
  match words, counts with
  | w :: words', n :: counts' =>
      let! t' := count_windows i (as_i32 (Z.of_N n)) (windows (map fst w)) t in count_pairs (i + 1) words' counts' t'
  | [], _ => Ok t
  | _, [] => Panic
  end.

(** "where_to_update.drain()...queue.push", trainer.rs:492-501 and 590-599. *)
Fixpoint push_entries (pc : list ((N * N) * Z)) (wtu : list ((N * N) * list nat)) (q : list tmerge) : res unit (list tmerge) :=
  match wtu with
  | [] => Ok q
  | (p, pos) :: wtu' =>
      let! n := of_option (aget pair_eqb p pc) in
      push_entries pc wtu' (if Z.ltb 0 n then q ++ [mkTm p (as_u64 n) pos] else q)
  end.

(** [Word::merge], word.rs:107-155, on the symbols from index [i] on; [prev] is
    the symbol at [i - 1]. *)
Fixpoint word_merge (c1 c2 r : N) (mx : option nat) (prev : option (N * nat)) (w : tword) : tword * list ((N * N) * Z) :=
  match w with
  | [] => ([], [])
  | (a, la) :: w1 =>
      let skip := let (w', ch) := word_merge c1 c2 r mx (Some (a, la)) w1 in ((a, la) :: w', ch) in
      match w1 with
      | (b, lb) :: w2 =>
          if N.eqb a c1 && N.eqb b c2 then
            let before := match prev with
                          | Some (p, lp) => ((p, a), (-1)%Z) :: (if below mx (lp + (la + lb)) then [((p, r), 1%Z)] else [])
                          | None => []
                          end in
            let after := match w2 with
                         | (n, ln) :: _ => ((b, n), (-1)%Z) :: (if below mx (ln + (la + lb)) then [((r, n), 1%Z)] else [])
                         | [] => []
                         end in
            let (w', ch) := word_merge c1 c2 r mx (Some (r, la + lb)) w2 in
            ((r, la + lb) :: w', before ++ after ++ ch)
          else skip
      | [] => skip
      end
  end.

Fixpoint set_nth {A} (i : nat) (a : A) (l : list A) : list A :=
  match i, l with
  | _, [] => []
  | 0, _ :: l' => a :: l'
  | S i', x :: l' => x :: set_nth i' a l'
  end.

(** The merge of every word of [pos], trainer.rs:551-580.  Words are merged in
    parallel, but no word is twice in [pos]. *)
Fixpoint merge_at (c1 c2 r : N) (mx : option nat) (pos : list nat) (words : list tword)
  : res unit (list tword * list (((N * N) * Z) * nat)) :=
  match pos with
  | [] => Ok (words, [])
  | i :: pos' =>
      let! w := of_option (nth_error words i) in
      let (w', ch) := word_merge c1 c2 r mx None w in
      let! (ws, chs) := merge_at c1 c2 r mx pos' (set_nth i w' words) in
      Ok (ws, map (fun c => (c, i)) ch ++ chs)
  end.

(** "Introduce new formed pairs", trainer.rs:582-589. *)
Fixpoint apply_changes (counts : list N) (chs : list (((N * N) * Z) * nat)) (t : tables) : res unit tables :=
  match chs with
  | [] => Ok t
  | ((p, d), i) :: chs' =>
      let! n := of_option (nth_error counts i) in
      let! k := chk_i32 (d * as_i32 (Z.of_N n))%Z in
      let! pc := pc_add (fst t) p k in
      apply_changes counts chs' (pc, if Z.ltb 0 d then wtu_add (snd t) p i else snd t)
  end.

(** [str::strip_prefix] (core library). *)
Fixpoint strip_prefix (p s : str) : option str :=
  match p, s with
  | [], _ => Some s
  | x :: p', y :: s' => if N.eqb x y then strip_prefix p' s' else None
  | _ :: _, [] => None
  end.

(** "Build new token", trainer.rs:529-540. *)
Definition new_token (tr : trainer) (part_a part_b : str) : str :=
  part_a ++ match tr_prefix tr with
            | Some p => match strip_prefix p part_b with Some rest => rest | None => part_b end
            | None => part_b
            end.

(** The state of the loop of [do_train]. *)
Record tstate := mkTs {
  ts_voc : voc; ts_words : list tword; ts_pc : list ((N * N) * Z);
  ts_queue : list tmerge; ts_merges : list ((N * N) * N) }.

Definition total_len (words : list tword) : nat := list_sum (map (@length (N * nat)) words).

(** Enough turns for the loop: a merge shortens words for each entry it adds,
    and between two merges each entry is put back once. *)
Definition turns (q : list tmerge) (words : list tword) : nat :=
  let k := length q + 3 * total_len words in (k + 1) * (k + 1).

Section training.
  (** [sort_unstable_by_key(|k| *k.1)] and [OctonaryHeap::pop]. *)
  Context (by_count : list (char * N) -> list (char * N)).
  Context (pop : list tmerge -> option (tmerge * list tmerge)).
  Context (tr : trainer).

  (** The kept characters, trainer.rs:330-346. *)
  Definition kept_chars (wc : list (str * N)) : list char :=
    let al := alphabet tr wc in
    let to_remove := match tr_limit tr with Some l => length al - l | None => 0 end in
    sort_chars (map fst (if 0 <? to_remove then skipn to_remove (by_count al) else al)).

  (** [compute_alphabet], trainer.rs:310-361. *)
  Definition compute_alphabet (wc : list (str * N)) (v : voc) : voc :=
    fold_left voc_add (map (fun c => [c]) (kept_chars wc)) v.

  (** The text of a character at its place, trainer.rs:378-396. *)
  Definition placed (first last : bool) (c : char) : str :=
    let s := if first then [c] else match tr_prefix tr with Some p => p ++ [c] | None => [c] end in
    if last then match tr_suffix tr with Some x => s ++ x | None => s end else s.

  (** One word of [tokenize_words], trainer.rs:374-409. *)
  Fixpoint tokenize_word (first : bool) (cs : str) (v : voc) : res unit (tword * voc) :=
    match cs with
    | [] => Ok ([], v)
    | c :: cs' =>
        if amem str_eqb [c] (v_ids v) then
          let s := placed first (is_nil cs') c in
          let v1 := voc_add v s in
          let! id := of_option (aget str_eqb s (v_ids v1)) in
          let! (w, v2) := tokenize_word false cs' v1 in
          Ok ((id, 1) :: w, v2)
        else tokenize_word false cs' v
    end.

  Fixpoint tokenize_words (ws : list str) (v : voc) : res unit (list tword * voc) :=
    match ws with
    | [] => Ok ([], v)
    | s :: ws' =>
        let! (w, v1) := tokenize_word true s v in
        let! (l, v2) := tokenize_words ws' v1 in
        Ok (w :: l, v2)
    end.

  (** One merge of the loop, trainer.rs:529-599: [top] has been taken from the queue. *)
  Definition do_merge (counts : list N) (top : tmerge) (q : list tmerge) (st : tstate) : res unit tstate :=
    let '(c1, c2) := tm_pair top in
    let v := ts_voc st in
    let! part_a := of_option (nth_error (v_words v) (N.to_nat c1)) in
    let! part_b := of_option (nth_error (v_words v) (N.to_nat c2)) in
    let t := new_token tr part_a part_b in
    let r := match aget str_eqb t (v_ids v) with Some i => i | None => N.of_nat (length (v_words v)) end in
    let v' := if amem str_eqb t (v_ids v) then v else mkVoc (aset str_eqb t r (v_ids v)) (v_words v ++ [t]) in
    let! (words, chs) := merge_at c1 c2 r (tr_max_length tr) (tm_pos top) (ts_words st) in
    let! (pc, wtu) := apply_changes counts chs (ts_pc st, []) in
    let! q' := push_entries pc wtu q in
    Ok (mkTs v' words pc q' (ts_merges st ++ [((c1, c2), r)])).

  (** "5. Do merges", trainer.rs:504-605. *)
  Fixpoint train_loop (fuel : nat) (counts : list N) (st : tstate) : res unit tstate :=
    match fuel with
    | 0 => Panic
    | S fuel' =>
        if tr_vocab_size tr <=? length (v_ids (ts_voc st)) then Ok st
        else
          match pop (ts_queue st) with
          | None => Ok st
          | Some (top, q) =>
              let! n := of_option (aget pair_eqb (tm_pair top) (ts_pc st)) in
              if negb (Z.eqb (tm_count top) (as_u64 n)) then
                train_loop fuel' counts
                  (mkTs (ts_voc st) (ts_words st) (ts_pc st) (q ++ [mkTm (tm_pair top) (as_u64 n) (tm_pos top)]) (ts_merges st))
              else if Z.ltb (tm_count top) 1 || Z.ltb (tm_count top) (Z.of_N (tr_min_frequency tr)) then Ok st
              else let! st' := do_merge counts top q st in train_loop fuel' counts st'
          end
    end.

  (** "Transfer new vocab & options to model", trainer.rs:608-627. *)
  Fixpoint final_vocab (words : list str) (ids : list (str * N)) (acc : list (str * N)) : res unit (list (str * N)) :=
    match ids with
    | [] => Ok acc
    | (_, i) :: ids' => let! s := of_option (nth_error words (N.to_nat i)) in final_vocab words ids' (aset str_eqb s i acc)
    end.
  Fixpoint final_merges (i : nat) (ms : list ((N * N) * N)) (acc : list ((N * N) * (N * N))) : list ((N * N) * (N * N)) :=
    match ms with
    | [] => acc
    | (p, r) :: ms' => final_merges (i + 1) ms' (aset pair_eqb p (N.of_nat i, r) acc)
    end.

  (** Steps 1 to 4 of [do_train], trainer.rs:461-501. *)
  Definition prepare (wc : list (str * N)) : res unit tstate :=
    let v := compute_alphabet wc (add_special tr (mkVoc [] [])) in
    let! (words, v1) := tokenize_words (map fst wc) v in
    let! (pc, wtu) := count_pairs 0 words (map snd wc) ([], []) in
    let! q := push_entries pc wtu [] in
    Ok (mkTs v1 words pc q []).

  (** [do_train], trainer.rs:456-630: the model, and the special tokens returned. *)
  Definition do_train (wc : list (str * N)) (m : bpe) : res unit (bpe * list str) :=
    let! st0 := prepare wc in
    let! st := train_loop (turns (ts_queue st0) (ts_words st0)) (map snd wc) st0 in
    let! vocab := final_vocab (v_words (ts_voc st)) (v_ids (ts_voc st)) [] in
    Ok (mkBpe vocab (reverse_vocab vocab) (final_merges 0 (ts_merges st) []) (b_dropout m) (b_unk m)
              (tr_prefix tr) (tr_suffix tr) (b_fuse m) (b_fallback m) (b_ignore_merges m), tr_special tr).
End training.

(** [feed], trainer.rs:646-678 (the same in the trainers of WordLevel and
    Unigram): the words of one sequence. *)
Definition count_word (m : list (str * N)) (w : str) (n : N) : list (str * N) :=
  aset str_eqb w (match aget str_eqb w m with Some k => k | None => 0 end + n)%N m.
Definition seq_counts {S E} (process : S -> res E (list str)) (s : S) : res E (list (str * N)) :=
  let! ws := process s in Ok (fold_left (fun m w => count_word m w 1) ws []).

(** How [reduce] combined the results of the sequences: identities may be put in anywhere. *)
Inductive reduction (S : Type) := RId | RLeaf (s : S) | RNode (l r : reduction S).
Arguments RId {S}.
Arguments RLeaf {S} s.
Arguments RNode {S} l r.

Fixpoint reduce {S E} (process : S -> res E (list str)) (t : reduction S) : res E (list (str * N)) :=
  match t with
  | RId => Ok []
  | RLeaf s => seq_counts process s
  | RNode l r =>
      match reduce process l, reduce process r with
      | Panic, _ | _, Panic => Panic
      | Err e, _ => Err e
      | _, Err e => Err e
      | Ok acc, Ok ws => Ok (fold_left (fun m wn => count_word m (fst wn) (snd wn)) ws acc)
      end
  end.
