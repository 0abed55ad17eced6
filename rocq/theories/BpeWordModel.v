(** Model of the BPE word: a linked list of symbols in a vector and the
    priority-queue merging.
    Source: /repo/tokenizers/src/models/bpe/word.rs. *)
From Verif Require Import Base.

(** [struct Symbol], word.rs:38-44.  [prev]/[next] are [isize] with [-1] for
    "none": here [option nat]. *)
Record symbol := mkSym { sy_c : N; sy_prev : option nat; sy_next : option nat; sy_len : nat }.

(** [struct Word], word.rs:56-59. *)
Notation word := (list symbol) (only parsing).

(** [MergeMap], model.rs:22: pair -> (rank, new id), by its lookup function. *)
Notation merge_map := (N -> N -> option (N * N)) (only parsing).

(** [struct Merge], word.rs:7-12. *)
Record merge := mkMerge { mg_pos : nat; mg_rank : N; mg_id : N }.

(** [v[i] = f(v[i])] on a vector. *)
Fixpoint upd {A} (l : list A) (i : nat) (f : A -> A) : list A :=
  match l, i with
  | [], _ => []
  | a :: l', O => f a :: l'
  | a :: l', S i' => a :: upd l' i' f
  end.

Definition set_next (n : option nat) (s : symbol) : symbol := mkSym (sy_c s) (sy_prev s) n (sy_len s).
Definition set_prev (p : option nat) (s : symbol) : symbol := mkSym (sy_c s) p (sy_next s) (sy_len s).
Definition set_len (n : nat) (s : symbol) : symbol := mkSym (sy_c s) (sy_prev s) (sy_next s) n.

(** [Symbol::merge_with], word.rs:48-53. *)
Definition merge_with (other : symbol) (new_c : N) (s : symbol) : symbol :=
  mkSym new_c (sy_prev s) (sy_next other) (sy_len s + sy_len other).

(** [Word::add], word.rs:88-107. *)
Definition word_add (w : word) (c : N) (byte_len : nat) : word :=
  let len := length w in
  match w with
  | [] => [mkSym c None None byte_len]
  | _ => upd w (len - 1) (set_next (Some len)) ++ [mkSym c (Some (len - 1)) None byte_len]
  end.

(** The initial content of the queue, word.rs:162-174 ([windows(2).enumerate()]). *)
Fixpoint initial_queue (merges : merge_map) (i : nat) (w : word) : list merge :=
  match w with
  | a :: ((b :: _) as w') =>
      (match merges (sy_c a) (sy_c b) with Some (r, n) => [mkMerge i r n] | None => [] end)
      ++ initial_queue merges (i + 1) w'
  | _ => []
  end.

(** The entry pushed for the pair of two symbols, word.rs:217-240. *)
Definition new_entry (merges : merge_map) (pos : nat) (a b : symbol) : list merge :=
  match merges (sy_c a) (sy_c b) with Some (r, n) => [mkMerge pos r n] | None => [] end.

(** The body of the loop of [merge_all] for an entry that is not dropped,
    word.rs:183-240: the new vector and the entries pushed ([continue]: no
    change).  [symbols[i]] out of bounds is a panic. *)
Definition process (merges : merge_map) (top : merge) (w : word) : res unit (word * list merge) :=
  let pos := mg_pos top in
  let! s := of_option (nth_error w pos) in
  if sy_len s =? 0 then Ok (w, [])
  else
    match sy_next s with
    | None => Ok (w, [])
    | Some next_pos =>
        let! rsym := of_option (nth_error w next_pos) in
        if match merges (sy_c s) (sy_c rsym) with
           | Some (_, new_id) => negb (N.eqb new_id (mg_id top))
           | None => true
           end
        then Ok (w, [])
        else
          let w1 := upd w pos (merge_with rsym (mg_id top)) in
          let w2 := upd w1 next_pos (set_len 0) in
          let w3 := match sy_next rsym with
                    | Some nx => if nx <? length w2 then upd w2 nx (set_prev (Some pos)) else w2
                    | None => w2
                    end in
          let! current := of_option (nth_error w3 pos) in
          let! q1 := match sy_prev current with
                     | Some prev =>
                         let! prev_symbol := of_option (nth_error w3 prev) in
                         Ok (new_entry merges prev prev_symbol current)
                     | None => Ok []
                     end in
          let! q2 := match sy_next current with
                     | Some next =>
                         if next <? length w3 then
                           let! next_symbol := of_option (nth_error w3 next) in
                           Ok (new_entry merges pos current next_symbol)
                         else Ok []
                     | None => Ok []
                     end in
          Ok (w3, q1 ++ q2)
    end.

Section merging.
  (** [QuaternaryHeap::pop] (external crate dary_heap): some entry that no other
      precedes, and the rest. *)
  Context (pop : list merge -> option (merge * list merge)).

  (** The loop of [merge_all], word.rs:176-242.  [draws k] is the outcome of the
      [k]-th test [random() < dropout]; it is constantly [false] without dropout.
      Fuel exhaustion ([Panic]) is proved unreachable. *)
  Fixpoint merge_loop (fuel : nat) (merges : merge_map) (draws : nat -> bool) (k : nat)
           (w : word) (queue skip : list merge) : res unit word :=
    match fuel with
    | O => Panic
    | S fuel' =>
        match pop queue with
        | None => Ok w
        | Some (top, queue') =>
            if draws k then merge_loop fuel' merges draws (k + 1) w queue' (skip ++ [top])
            else
              let! (w', new) := process merges top w in
              merge_loop fuel' merges draws (k + 1) w' (queue' ++ skip ++ new) []
        end
    end.

  Definition merge_fuel (w : word) : nat := (3 * length w + 1) * (3 * length w + 1) + length w + 1.

  (** [Word::merge_all], word.rs:158-246. *)
  Definition merge_all (merges : merge_map) (draws : nat -> bool) (w : word) : res unit word :=
    let! w' := merge_loop (merge_fuel w) merges draws 0 w (initial_queue merges 0 w) [] in
    Ok (filter (fun s => negb (sy_len s =? 0)) w').
End merging.

(** [get_chars], word.rs:248-250. *)
Definition get_chars (w : word) : list N := map sy_c w.

(** [get_offsets_iter], word.rs:256-264. *)
Fixpoint get_offsets (pos : nat) (w : word) : list offsets_t :=
  match w with
  | [] => []
  | s :: w' => (pos, pos + sy_len s) :: get_offsets (pos + sy_len s) w'
  end.
