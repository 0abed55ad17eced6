(** Model of the numeric part of Unigram training,
    /repo/tokenizers/src/models/unigram/trainer.rs: the seed pieces, the E step
    and the pruning.  [TrainersModel.uni_train] takes them as arguments.  All
    numbers of the code are [f64]: here the type [W], whose operations are
    arguments; [u32] counts are not bounded. *)
From Verif Require Import Base StrBytes AMap Utf8 EncodingModel BpeWordModel BpeModel TrieModel UnigramModel MarginalModel TrainersModel.

(** The operations on [f64] besides those of [arith]: those of [log_sum_exp], [-],
    [exp], [*], [/], [ln], [f64::from(u32)], [== 0.0], [is_nan] and
    [(n as f64 * shrinking_factor) as usize]. *)
Record tarith (W : Type) := mkTarith {
  ta_far : W -> W -> bool; ta_near : W -> W -> W; ta_sub : W -> W -> W; ta_exp : W -> W; ta_mul : W -> W -> W; ta_div : W -> W -> W; ta_ln : W -> W;
  ta_of : N -> W; ta_is_zero : W -> bool; ta_is_nan : W -> bool; ta_shrink : nat -> nat }.
Arguments mkTarith {W}.
Arguments ta_far {W}.
Arguments ta_near {W}.
Arguments ta_sub {W}.
Arguments ta_exp {W}.
Arguments ta_mul {W}.
Arguments ta_div {W}.
Arguments ta_ln {W}.
Arguments ta_of {W}.
Arguments ta_is_zero {W}.
Arguments ta_is_nan {W}.
Arguments ta_shrink {W}.

(** [slice.chunks(n)] for n > 0; [fuel] is the length of the list. *)
Fixpoint chunks_of {X} (fuel n : nat) (l : list X) : list (list X) :=
  match fuel, l with
  | _, [] => []
  | O, _ => []
  | S fuel', _ => firstn n l :: chunks_of fuel' n (skipn n l)
  end.

(** rayon's [reduce(identity, op)] on chunks (utils/parallelism.rs:220-234; trainer.rs:342-357, 475-488): the results in
    order, put together in pairs in some way, with identities in between.  The
    serial version is one of the ways. *)
Inductive rtree := RLeaf | RUnit | RNode (a b : rtree).
Fixpoint leaves (t : rtree) : nat := match t with RLeaf => 1 | RUnit => 0 | RNode a b => leaves a + leaves b end.
Fixpoint reduce {X} (unit : X) (op : X -> X -> X) (t : rtree) (l : list X) : X * list X :=
  match t with
  | RLeaf => match l with x :: l' => (x, l') | [] => (unit, []) end
  | RUnit => (unit, l)
  | RNode a b => let (x, l1) := reduce unit op a l in let (y, l2) := reduce unit op b l1 in (op x y, l2)
  end.

(** All results, or the first failure. *)
Fixpoint collect {E X Y} (f : X -> res E Y) (l : list X) : res E (list Y) :=
  match l with
  | [] => Ok []
  | x :: l' => let! y := f x in let! ys := collect f l' in Ok (y :: ys)
  end.

(** A stable sort in the order of [before] (strict). *)
Fixpoint insert_by {X} (before : X -> X -> bool) (x : X) (l : list X) : list X :=
  match l with
  | [] => [x]
  | y :: l' => if before y x then y :: insert_by before x l' else x :: l
  end.
Definition sort_by {X} (before : X -> X -> bool) (l : list X) : list X := fold_right (insert_by before) [] l.

(** [Iterator::zip] with a function. *)
Fixpoint zip_with {X Y Z} (f : X -> Y -> Z) (a : list X) (b : list Y) : list Z :=
  match a, b with
  | x :: a', y :: b' => f x y :: zip_with f a' b'
  | _, _ => []
  end.

Section train.
  Context {W : Type} (A : arith W) (T : tarith W).
  Definition t_marith : marith W W := mkMarith (ta_far T) (ta_near T) (ta_sub T) (ta_exp T) (ta_mul T) (ta_mul T) (a_add A).

  (** ** Seeds *)
  Section seeds.
    (** [esaxx_rs::suffix]: substrings of a text with their frequencies; [max_piece_length], [seed_size]. *)
    Context (suffix : str -> list (str * N)) (max_piece seed_size : nat).

    (** [is_valid_sentencepiece], trainer.rs:100-111. *)
    Definition valid_piece (s : str) : bool := negb (is_nil s) && (length s <=? max_piece).
    (** The texts, each followed by NUL, trainer.rs:206-219. *)
    Definition flat_string (wc : list (str * N)) : str := flat_map (fun e => if is_nil (fst e) then [] else fst e ++ [0%N]) wc.
    (** [all_chars], trainer.rs:220-225. *)
    Definition count_char (n : N) (acc : list (char * N)) (c : char) : list (char * N) :=
      if N.eqb c 0 then acc else aset N.eqb c (match aget N.eqb c acc with Some k => k + n | None => n end)%N acc.
    Definition all_chars (wc : list (str * N)) : list (char * N) :=
      fold_left (fun acc e => fold_left (count_char (snd e)) (fst e) acc) wc [].
    (** [sort_by_key(|&a| Reverse(a))] on (count, character), trainer.rs:235-237. *)
    Definition char_before (a b : char * N) : bool := N.ltb (snd b) (snd a) || (N.eqb (snd a) (snd b) && N.ltb (fst b) (fst a)).
    (** ... and on (score, text), trainer.rs:264. *)
    Fixpoint str_ltb (a b : str) : bool :=
      match a, b with
      | _, [] => false
      | [], _ :: _ => true
      | x :: a', y :: b' => N.ltb x y || (N.eqb x y && str_ltb a' b')
      end.
    Definition piece_before (a b : N * str) : bool := N.ltb (fst b) (fst a) || (N.eqb (fst a) (fst b) && str_ltb (snd b) (snd a)).
    (** [substr_index], trainer.rs:238-256. *)
    Definition substr_index (wc : list (str * N)) : list (N * str) :=
      flat_map (fun e => if length (fst e) <=? 1 then [] else if existsb (N.eqb 0) (fst e) then [] else if negb (valid_piece (fst e)) then [] else [((snd e * N.of_nat (length (fst e)))%N, fst e)])
               (suffix (flat_string wc)).
    (** The loop, trainer.rs:265-273. *)
    Fixpoint take_seeds (l : list (N * str)) (acc : list (str * W)) : list (str * W) :=
      match l with
      | [] => acc
      | (score, s) :: l' => let acc' := acc ++ [(s, ta_of T score)] in if seed_size <=? length acc' then acc' else take_seeds l' acc'
      end.
    (** [to_log_prob], trainer.rs:38-44. *)
    Definition to_log_prob (pieces : list (str * W)) : list (str * W) :=
      let logsum := ta_ln T (fold_left (fun s p => a_add A s (snd p)) pieces (a_zero A)) in
      map (fun p => (fst p, ta_sub T (ta_ln T (snd p)) logsum)) pieces.
    (** [make_seed_sentence_pieces], trainer.rs:196-276. *)
    Definition make_seed (wc : list (str * N)) : list (str * W) :=
      to_log_prob (take_seeds (sort_by piece_before (substr_index wc)) (map (fun e => ([fst e], ta_of T (snd e))) (sort_by char_before (all_chars wc)))).
  End seeds.

  (** [current_num_threads], at least 1, and how the results are put together. *)
  Context (threads : nat) (plan : nat -> rtree).

  (** ** E step *)
  (** The loop over the sentences of a chunk, trainer.rs:462-472: the expected
      counts.  The objective and the number of tokens, which are only logged, are
      left out, but not the Viterbi search that counts the tokens. *)
  Fixpoint e_chunk (m : unigram W) (sentences : list (str * N)) (expected : list W) : res uni_error (list W) :=
    match sentences with
    | [] => Ok expected
    | (s, freq) :: sentences' =>
        let! la := populate_nodes A m s in
        let! r := populate_marginal A t_marith la (ta_of T freq) expected in
        if ta_is_nan T (snd r) then Panic
        else
          let! _ := viterbi A la in
          e_chunk m sentences' (fst r)
    end.
  Definition chunks (wc : list (str * N)) : list (list (str * N)) := chunks_of (length wc) (Nat.max (length wc / threads) 1) wc.
  (** [run_e_step], trainer.rs:451-491. *)
  Definition run_e_step (step : nat) (m : unigram W) (wc : list (str * N)) : res uni_error (list W) :=
    let zeros := repeat (a_zero A) (length (u_vocab m)) in
    let! parts := collect (fun chunk => e_chunk m chunk zeros) (chunks wc) in
    Ok (fst (reduce zeros (zip_with (a_add A)) (plan step) parts)).

  (** ** Pruning *)
  Context (fuel : nat) (pop : list (hypothesis W) -> option (hypothesis W * list (hypothesis W))) (vocab_size : nat).

  (** [node.borrow().id] of the nodes of a path. *)
  Definition path_ids (la : lattice W) (path : list nat) : res uni_error (list nat) :=
    collect (fun i => let! n := of_option (nth_error (la_nodes la) i) in Ok (N.to_nat (ln_id n))) path.
  (** A piece on its own, trainer.rs:300-314: [always_keep] and [alternatives]. *)
  Definition alternatives (m : unigram W) (token : str) : res uni_error (bool * list nat) :=
    let! la := populate_nodes A m token in
    let! nbests := nbest A fuel la 2 pop in
    if length nbests =? 1 then Ok (true, [])
    else
      let! b0 := of_option (nth_error nbests 0) in
      if 2 <=? length b0 then Ok (false, [])
      else if length b0 =? 1 then
        let! b1 := of_option (nth_error nbests 1) in
        let! ids := path_ids la b1 in
        Ok (true, ids)
      else Ok (true, []).
  (** The first loop, trainer.rs:294-315; the first piece is the unknown token. *)
  Definition all_alternatives (m : unigram W) (pieces : list (str * W)) : res uni_error (list (bool * list nat)) :=
    match pieces with
    | [] => Ok []
    | _ :: pieces' => let! r := collect (fun p => alternatives m (fst p)) pieces' in Ok ((false, []) :: r)
    end.

  (** Where the pieces are used, trainer.rs:329-341: (vsum, freq, inverted). *)
  Fixpoint tally (i : nat) (count : W) (ids : list nat) (fi : list W * list (list nat)) : res uni_error (list W * list (list nat)) :=
    match ids with
    | [] => Ok fi
    | id :: ids' =>
        let! _ := of_option (nth_error (fst fi) id) in
        let! _ := of_option (nth_error (snd fi) id) in
        tally i count ids' (upd (fst fi) id (fun x => a_add A x count), upd (snd fi) id (fun l => l ++ [i]))
    end.
  Fixpoint use_chunk (m : unigram W) (sentences : list (nat * (str * N))) (acc : W * (list W * list (list nat))) : res uni_error (W * (list W * list (list nat))) :=
    match sentences with
    | [] => Ok acc
    | (i, (s, count)) :: sentences' =>
        let! la := populate_nodes A m s in
        let! r := viterbi A la in
        let! ids := path_ids la (snd r) in
        let! fi := tally i (ta_of T count) ids (snd acc) in
        use_chunk m sentences' (a_add A (fst acc) (ta_of T count), fi)
    end.
  Definition join_uses (a b : W * (list W * list (list nat))) : W * (list W * list (list nat)) :=
    (a_add A (fst a) (fst b), (zip_with (a_add A) (fst (snd a)) (fst (snd b)), zip_with (fun x y => x ++ y) (snd (snd a)) (snd (snd b)))).
  (** The second part, trainer.rs:317-361. *)
  Definition uses (step : nat) (m : unigram W) (n : nat) (wc : list (str * N)) : res uni_error (W * (list W * list (list nat))) :=
    let none := (a_zero A, (repeat (a_zero A) n, repeat [] n)) in
    let indexed := combine (seq 0 (length wc)) wc in
    let! parts := collect (fun chunk => use_chunk m chunk none) (chunks_of (length wc) (Nat.max (length wc / threads) 1) indexed) in
    Ok (fst (reduce none join_uses (plan step) parts)).

  (** The loss when a piece is removed, trainer.rs:383-414; [None]: the piece is dropped. *)
  Definition loss_of (wc : list (str * N)) (vsum sum : W) (freq : list W) (uses_of : list nat) (fid : W) (alts : list nat) : res uni_error (option W) :=
    let! counts := collect (fun n => let! s := of_option (nth_error wc n) in Ok (ta_of T (snd s))) uses_of in
    let f := fold_left (a_add A) counts (a_zero A) in
    if ta_is_zero T f || ta_is_nan T f then Ok None
    else
      let logsum := ta_ln T sum in
      let logprob_sp := ta_sub T (ta_ln T fid) logsum in
      let logsum_alt := ta_ln T (a_add A sum (ta_mul T fid (ta_of T (N.of_nat (length alts - 1))))) in
      let! fs := collect (fun n => of_option (nth_error freq n)) alts in
      let logprob_alt := fold_left (fun acc fn => a_add A acc (ta_sub T (ta_ln T (a_add A fn fid)) logsum_alt)) fs (a_zero A) in
      let loss := ta_mul T (ta_div T f vsum) (ta_sub T logprob_sp logprob_alt) in
      if ta_is_nan T loss then Panic else Ok (Some loss).

  (** The loop over the pieces, trainer.rs:372-418: the pieces that are kept
      without alternatives and the candidates. *)
  Fixpoint sift (wc : list (str * N)) (vsum sum : W) (freq : list W) (inverted : list (list nat)) (alts : list (bool * list nat)) (id : nat) (pieces : list (str * W))
    (kept : list (str * W)) (candidates : list (nat * W)) : res uni_error (list (str * W) * list (nat * W)) :=
    match pieces with
    | [] => Ok (kept, candidates)
    | p :: pieces' =>
        if id =? 0 then sift wc vsum sum freq inverted alts (S id) pieces' kept candidates
        else
          let! fid := of_option (nth_error freq id) in
          let! ka := of_option (nth_error alts id) in
          if ta_is_zero T fid && negb (fst ka) then sift wc vsum sum freq inverted alts (S id) pieces' kept candidates
          else if is_nil (snd ka) then sift wc vsum sum freq inverted alts (S id) pieces' (kept ++ [p]) candidates
          else
            let! uses_of := of_option (nth_error inverted id) in
            let! l := loss_of wc vsum sum freq uses_of fid (snd ka) in
            match l with
            | None => sift wc vsum sum freq inverted alts (S id) pieces' kept candidates
            | Some loss => sift wc vsum sum freq inverted alts (S id) pieces' kept (candidates ++ [(id, loss)])
            end
    end.
  (** The loop over the candidates, trainer.rs:424-429. *)
  Fixpoint refill (size : nat) (pieces : list (str * W)) (candidates : list (nat * W)) (new : list (str * W)) : res uni_error (list (str * W)) :=
    match candidates with
    | [] => Ok new
    | (id, _) :: candidates' =>
        if length new =? size then Ok new
        else
          let! p := of_option (nth_error pieces id) in
          refill size pieces candidates' (new ++ [p])
    end.
  (** [prune_sentence_pieces], trainer.rs:277-432.  [candidates.sort_by] cannot
      meet a NaN. *)
  Definition prune_pieces (step : nat) (m : unigram W) (pieces : list (str * W)) (wc : list (str * N)) : res uni_error (list (str * W)) :=
    let! alts := all_alternatives m pieces in
    let! u := uses step m (length pieces) wc in
    let '(vsum, (freq, inverted)) := u in
    let sum := fold_left (a_add A) freq (a_zero A) in
    let! p0 := of_option (nth_error pieces 0) in
    let! r := sift wc vsum sum freq inverted alts 0 pieces [p0] [] in
    let size := Nat.max ((vocab_size * 11) / 10) (ta_shrink T (length pieces)) in
    refill size pieces (sort_by (fun a b => a_gtb A (snd a) (snd b)) (snd r)) (fst r).
End train.

(** [do_train], trainer.rs:529-611, with these parts. *)
Section do_train.
  Context {W : Type} (A : arith W) (T : tarith W).
  Context (missing : W -> nat -> W) (nan : W) (enough : W -> bool) (rescore : W -> W -> W) (arrange : list str -> list str).
  Context (suffix : str -> list (str * N)) (max_piece seed_size threads : nat) (plan : nat -> rtree)
          (fuel : nat) (pop : list (hypothesis W) -> option (hypothesis W * list (hypothesis W))).

  Definition e_step_on (wc : list (str * N)) (step : nat) (pieces : list (str * W)) : option (nat -> W) :=
    match uni_from A pieces (Some 0%N) false with
    | Ok m => match run_e_step A T threads plan step m wc with Ok e => Some (fun i => nth i e nan) | _ => None end
    | _ => None
    end.
  Definition prune_on (tr : uni_trainer) (wc : list (str * N)) (step : nat) (pieces : list (str * W)) : option (list (str * W)) :=
    match uni_from A pieces (Some 0%N) false with
    | Ok m => match prune_pieces A T threads plan fuel pop (ut_vocab_size tr) step m pieces wc with Ok p => Some p | _ => None end
    | _ => None
    end.
  Definition uni_do_train (rounds : nat) (tr : uni_trainer) (wc : list (str * N)) : res ut_error (unigram W * list str) :=
    uni_train A (ta_is_nan T) missing nan enough rescore (make_seed A T suffix max_piece seed_size) (e_step_on wc) (prune_on tr wc) arrange rounds tr wc.
End do_train.
