(** What a user expects of BPE training. *)
From Verif Require Import Base AMap EncodingModel BpeWordModel BpeModel BpeTrainModel.
From Coq Require Export Sorting.Permutation Sorting.Sorted.
From Coq Require Import ZArith.

(** ** The oracles *)
(** A heap ordered by count, then by the smaller pair: ties are free. *)
Definition pair_le (p q : N * N) : Prop := (fst p < fst q)%N \/ (fst p = fst q /\ (snd p <= snd q)%N).
Definition train_heap (pop : list tmerge -> option (tmerge * list tmerge)) : Prop :=
  pop [] = None /\
  forall q, q <> [] -> exists e q', pop q = Some (e, q') /\ Permutation q (e :: q') /\
    forall e', In e' q' -> (tm_count e' < tm_count e)%Z \/ (tm_count e' = tm_count e /\ pair_le (tm_pair e) (tm_pair e')).
(** A sort by ascending count: ties are free. *)
Definition count_sort (by_count : list (char * N) -> list (char * N)) : Prop :=
  forall l, Permutation l (by_count l) /\ StronglySorted (fun a b => (snd a <= snd b)%N) (by_count l).

(** A heap and a sort. *)
Definition tm_first (a b : tmerge) : bool :=
  Z.ltb (tm_count b) (tm_count a) ||
  (Z.eqb (tm_count a) (tm_count b) &&
   (N.ltb (fst (tm_pair a)) (fst (tm_pair b)) || (N.eqb (fst (tm_pair a)) (fst (tm_pair b)) && N.leb (snd (tm_pair a)) (snd (tm_pair b))))).
Fixpoint pop_first (q : list tmerge) : option (tmerge * list tmerge) :=
  match q with
  | [] => None
  | e :: q' => match pop_first q' with
               | None => Some (e, [])
               | Some (e', r) => if tm_first e e' then Some (e, q') else Some (e', e :: r)
               end
  end.
Fixpoint insert_count (x : char * N) (l : list (char * N)) : list (char * N) :=
  match l with
  | [] => [x]
  | y :: l' => if N.leb (snd x) (snd y) then x :: l else y :: insert_count x l'
  end.
Definition sort_count (l : list (char * N)) : list (char * N) := fold_right insert_count [] l.

(** The counts of pairs are [i32]: corpora beyond this size (in characters, with
    repetitions) are left out. *)
Definition corpus_size (wc : list (str * N)) : N := fold_right (fun wn n => (snd wn * N.of_nat (length (fst wn)) + n)%N) 0%N wc.
Definition small_corpus (wc : list (str * N)) : Prop := (5 * corpus_size wc < 2147483648)%N.

(** ** Tokens *)
(** Without repetitions, first occurrences kept. *)
Fixpoint distinct (l : list str) : list str :=
  match l with
  | [] => []
  | s :: l' => s :: filter (fun t => negb (str_eqb s t)) (distinct l')
  end.

(** [toks] in the order of ids are all the tokens of the model. *)
Definition vocabulary (m : bpe) (toks : list str) : Prop :=
  NoDup toks /\
  (forall t i, In (t, i) (b_vocab m) <-> nth_error toks (N.to_nat i) = Some t) /\
  (forall t i, In (i, t) (b_vocab_r m) <-> nth_error toks (N.to_nat i) = Some t).

(** The table of the model is made of [ms], ranked in order; of two equal pairs the later counts. *)
Definition ranked (m : bpe) (ms : list ((N * N) * N)) : Prop :=
  forall a b k r, In ((a, b), (k, r)) (b_merges m) <->
    nth_error ms (N.to_nat k) = Some ((a, b), r) /\ forall j r', N.to_nat k < j -> nth_error ms j <> Some ((a, b), r').

(** A character in its place, and the token made of two. *)
Definition affixed (prefix suffix : option str) (first last : bool) (c : char) : str :=
  (if first then [] else match prefix with Some p => p | None => [] end) ++ [c] ++
  (if last then match suffix with Some x => x | None => [] end else []).
Definition joined (prefix : option str) (a b t : str) : Prop :=
  (exists p rest, prefix = Some p /\ b = p ++ rest /\ t = a ++ rest) \/
  ((forall p rest, prefix = Some p -> b <> p ++ rest) /\ t = a ++ b).

(** How often [c] is in the counted words. *)
Definition char_frequency (c : char) (wc : list (str * N)) : N :=
  fold_right (fun wn n => (snd wn * N.of_nat (count_occ N.eq_dec (fst wn) c) + n)%N) 0%N wc.
(** The weight of a character when the alphabet is limited. *)
Definition char_weight (tr : trainer) (wc : list (str * N)) (c : char) : N :=
  if existsb (N.eqb c) (tr_initial tr) then usize_max else char_frequency c wc.

(** The characters kept. *)
Definition kept_alphabet (tr : trainer) (wc : list (str * N)) (al : list char) : Prop :=
  let seen c := In c (tr_initial tr) \/ exists w n, In (w, n) wc /\ In c w in
  StronglySorted N.lt al /\ (forall c, In c al -> seen c) /\
  match tr_limit tr with
  | None => forall c, seen c -> In c al
  | Some l =>
      length al <= l /\
      (forall c, seen c -> ~ In c al -> length al = l /\ forall d, In d al -> (char_weight tr wc c <= char_weight tr wc d)%N)
  end.

(** The tokens before any merge: special tokens, then characters, then the forms
    that characters take inside words. *)
Definition first_tokens (tr : trainer) (wc : list (str * N)) (al : list char) (toks : list str) : Prop :=
  exists extra, toks = distinct (tr_special tr ++ map (fun c => [c]) al ++ extra) /\
    forall t, In t extra -> exists w n p c q, In (w, n) wc /\ w = p ++ c :: q /\
      (In [c] (tr_special tr) \/ In c al) /\ t = affixed (tr_prefix tr) (tr_suffix tr) (is_nil p) (is_nil q) c.

(** ** Segmentations *)
(** A symbol is an id and a number of characters.  The words at the start:
    characters without a token are dropped. *)
Inductive spelled (tr : trainer) (toks : list str) : bool -> str -> list (N * nat) -> Prop :=
| sp_nil first : spelled tr toks first [] []
| sp_known first c s i w :
    In [c] toks -> nth_error toks (N.to_nat i) = Some (affixed (tr_prefix tr) (tr_suffix tr) first (is_nil s) c) ->
    spelled tr toks false s w -> spelled tr toks first (c :: s) ((i, 1) :: w)
| sp_unknown first c s w :
    ~ In [c] toks -> spelled tr toks false s w -> spelled tr toks first (c :: s) w.

Notation corpus := (list (list (N * nat) * N)) (only parsing).

Definition spelled_corpus (tr : trainer) (toks : list str) (wc : list (str * N)) (cp : corpus) : Prop :=
  Forall2 (fun wn sn => spelled tr toks true (fst wn) (fst sn) /\ snd sn = snd wn) wc cp.

(** In how many places [a] and [b] are side by side. *)
Fixpoint adjacent (a b : N) (w : list (N * nat)) : N :=
  match w with
  | x :: ((y :: _) as w') => ((if N.eqb (fst x) a && N.eqb (fst y) b then 1 else 0) + adjacent a b w')%N
  | _ => 0%N
  end.
Definition frequency (a b : N) (cp : corpus) : N := fold_right (fun wn n => (snd wn * adjacent a b (fst wn) + n)%N) 0%N cp.

(** [a b] replaced by [r] from left to right. *)
Fixpoint replace (a b r : N) (w : list (N * nat)) : list (N * nat) :=
  match w with
  | [] => []
  | x :: w1 =>
      match w1 with
      | y :: w2 => if N.eqb (fst x) a && N.eqb (fst y) b then (r, snd x + snd y) :: replace a b r w2 else x :: replace a b r w1
      | [] => [x]
      end
  end.

(** Two symbols that may be merged: the first characters always, then only if
    the result is shorter than the maximum. *)
Definition joinable (mx : option nat) (x y : N * nat) : Prop :=
  (snd x = 1 /\ snd y = 1) \/ match mx with Some m => snd x + snd y < m | None => True end.
Definition candidate (mx : option nat) (cp : corpus) (a b : N) : Prop :=
  exists w n pre x y post, In (w, n) cp /\ w = pre ++ x :: y :: post /\ fst x = a /\ fst y = b /\ joinable mx x y.

(** The least frequency of a pair that is merged. *)
Definition least_frequency (tr : trainer) : N := N.max 1 (tr_min_frequency tr).

(** The pair to merge: the most frequent, the smallest ids among equals. *)
Definition best (tr : trainer) (cp : corpus) (a b : N) : Prop :=
  candidate (tr_max_length tr) cp a b /\ (least_frequency tr <= frequency a b cp)%N /\
  forall a' b', candidate (tr_max_length tr) cp a' b' ->
    (frequency a' b' cp < frequency a b cp)%N \/ (frequency a' b' cp = frequency a b cp /\ pair_le (a, b) (a', b')).

(** From tokens [toks] and segmentations [cp], the merges [ms] are learnt,
    giving tokens [toks'] and segmentations [cp']. *)
Inductive learns (tr : trainer) : list str -> corpus -> list ((N * N) * N) -> list str -> corpus -> Prop :=
| learns_stop toks cp :
    (tr_vocab_size tr <= length toks \/ forall a b, candidate (tr_max_length tr) cp a b -> (frequency a b cp < least_frequency tr)%N) ->
    learns tr toks cp [] toks cp
| learns_step toks cp a b r ta tb t toks1 ms toks' cp' :
    length toks < tr_vocab_size tr -> best tr cp a b ->
    nth_error toks (N.to_nat a) = Some ta -> nth_error toks (N.to_nat b) = Some tb -> joined (tr_prefix tr) ta tb t ->
    (In t toks /\ toks1 = toks \/ ~ In t toks /\ toks1 = toks ++ [t]) -> nth_error toks1 (N.to_nat r) = Some t ->
    learns tr toks1 (map (fun wn => (replace a b r (fst wn), snd wn)) cp) ms toks' cp' ->
    learns tr toks cp (((a, b), r) :: ms) toks' cp'.

(** The results are new: none is a symbol of the words at the start, none comes twice. *)
Definition new_results (cp : corpus) (ms : list ((N * N) * N)) : Prop :=
  NoDup (map snd ms) /\ forall w n s, In (w, n) cp -> In s w -> ~ In (fst s) (map snd ms).

(** The merges applied one after the other, each from left to right. *)
Definition in_order (ms : list ((N * N) * N)) (w : list (N * nat)) : list (N * nat) :=
  fold_left (fun w m => replace (fst (fst m)) (snd (fst m)) (snd m) w) ms w.

(** No decoration of characters. *)
Definition plain (tr : trainer) : Prop := tr_prefix tr = None /\ tr_suffix tr = None.

(** ** Feeding *)
(** The sequences that were fed, and how often a word comes in them. *)
Fixpoint leaves {S} (t : reduction S) : list S :=
  match t with RId => [] | RLeaf s => [s] | RNode l r => leaves l ++ leaves r end.
Definition occurrences {S E} (process : S -> res E (list str)) (w : str) (seqs : list S) : nat :=
  list_sum (map (fun s => match process s with Ok ws => count_occ (list_eq_dec N.eq_dec) ws w | _ => 0 end) seqs).
