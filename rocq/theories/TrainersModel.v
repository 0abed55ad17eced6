(** Model of the trainers of WordLevel, WordPiece and Unigram.
    Source: /repo/tokenizers/src/models/wordlevel/trainer.rs,
    wordpiece/trainer.rs, [WordPiece::from_bpe] of wordpiece/mod.rs and
    unigram/trainer.rs.  Feeding is the same as for BPE (BpeTrainModel.v).  Hash
    maps are lists, whose order stands for the arbitrary order of iteration.
    Progress reports are left out; [u32] ids are not truncated. *)
From Verif Require Import Base StrBytes AMap Utf8 EncodingModel BpeWordModel BpeModel BpeTrainModel TrieModel UnigramModel WordPieceModel.

(** ** WordLevel *)

(** [struct WordLevelTrainer], wordlevel/trainer.rs:9-26, of the special tokens only the content. *)
Record wl_trainer := mkWlt { lt_min_frequency : N; lt_vocab_size : nat; lt_special : list str }.

(** [Ord for str]: the bytes in lexicographic order. *)
Fixpoint bytes_leb (a b : list N) : bool :=
  match a, b with
  | [], _ => true
  | _ :: _, [] => false
  | x :: a', y :: b' => N.ltb x y || (N.eqb x y && bytes_leb a' b')
  end.

(** [cmp] is not [Greater], wordlevel/trainer.rs:48-54. *)
Definition wl_before (l r : str * N) : bool :=
  if N.eqb (snd l) (snd r) then bytes_leb (encode_utf8 (fst l)) (encode_utf8 (fst r)) else N.ltb (snd r) (snd l).

(** [ordered_counts.sort_by(cmp)], wordlevel/trainer.rs:56. *)
Fixpoint wl_insert (x : str * N) (l : list (str * N)) : list (str * N) :=
  match l with
  | [] => [x]
  | y :: l' => if wl_before x y then x :: l else y :: wl_insert x l'
  end.
Definition wl_sort (l : list (str * N)) : list (str * N) := fold_right wl_insert [] l.

(** [.enumerate().map(|(i, w)| (w, i)).collect()], wordlevel/trainer.rs:71-73. *)
Fixpoint enumerate_into (i : nat) (l : list str) (m : list (str * N)) : list (str * N) :=
  match l with
  | [] => m
  | w :: l' => enumerate_into (i + 1) l' (aset str_eqb w (N.of_nat i) m)
  end.

(** [do_train], wordlevel/trainer.rs:38-82; the model and the special tokens returned. *)
Definition wl_train (tr : wl_trainer) (wc : list (str * N)) (m : wordlevel) : wordlevel * list str :=
  let words := map fst (filter (fun wn => N.leb (lt_min_frequency tr) (snd wn)) (wl_sort wc)) in
  (mkWL (enumerate_into 0 (firstn (lt_vocab_size tr) (lt_special tr ++ words)) []) (l_unk m), lt_special tr).

(** ** WordPiece *)

(** [BPE::default], bpe/model.rs:112-130, 340-344. *)
Definition bpe_default : bpe := mkBpe [] [] [] DNone None None None false false false.

(** [WordPiece::default], wordpiece/mod.rs:143-153. *)
Definition wp_default_unk : str := [91; 85; 78; 75; 93]%N.
Definition wp_default_prefix : str := [35; 35]%N.

(** [WordPiece::from_bpe], wordpiece/mod.rs:198-210. *)
Definition from_bpe (b : bpe) : wordpiece :=
  mkWP (b_vocab b) (match b_unk b with Some u => u | None => wp_default_unk end)
       (match b_prefix b with Some p => p | None => wp_default_prefix end) 100.

(** [WordPieceTrainer::train], wordpiece/trainer.rs:169-181. *)
Definition wp_train (by_count : list (char * N) -> list (char * N)) (pop : list tmerge -> option (tmerge * list tmerge))
           (tr : trainer) (wc : list (str * N)) (m : wordpiece) : res unit (wordpiece * list str) :=
  let! (b, special) := do_train by_count pop tr wc bpe_default in
  let new := from_bpe b in
  Ok (mkWP (w_vocab new) (w_unk m) (w_prefix new) (w_max m), special).

(** ** Unigram *)

(** [struct UnigramTrainer], unigram/trainer.rs:47-71, of the special tokens
    only the content; [shrinking_factor], [max_piece_length] and [seed_size] are
    read only by functions that are arguments below. *)
Record uni_trainer := mkUt {
  ut_vocab_size : nat; ut_sub_iterations : nat; ut_special : list str; ut_initial : list char; ut_unk : option str }.

(** The literal ["<UNK>"], unigram/trainer.rs:121, 543. *)
Definition training_unk : str := [60; 85; 78; 75; 62]%N.

(** [UnigramTrainerError] and the errors of [Unigram::from]. *)
Inductive ut_error := EVocabularyTooSmall | EUnigram (e : uni_error).

Definition lift_uni {A} (r : res uni_error A) : res ut_error A :=
  match r with Ok a => Ok a | Err e => Err (EUnigram e) | Panic => Panic end.

Section unigram.
  Context {W : Type} (A : arith W).
  (** [f64::is_nan], the score [min_score + k * 0.0001] of the k-th missing
      character (summed step by step, trainer.rs:129-133), [f64::NAN],
      [!(freq < 0.5)] and [digamma(c) - digamma(sum)] of the M step. *)
  Context (is_nan : W -> bool) (missing : W -> nat -> W) (nan : W) (enough : W -> bool) (rescore : W -> W -> W).
  (** [make_seed_sentence_pieces], trainer.rs:196-276; [run_e_step], 451-491, the
      expected counts by id ([None]: a panic); [prune_sentence_pieces], 277-432.
      The number is the step: sums depend on the threads. *)
  Context (seed : list (str * N) -> list (str * W))
          (e_step : nat -> list (str * W) -> option (nat -> W))
          (prune : nat -> list (str * W) -> option (list (str * W))).
  (** The order of iteration of a set. *)
  Context (arrange : list str -> list str).

  (** The characters that the vocabulary must have, trainer.rs:124-135: [k] were missing. *)
  Fixpoint required_pieces (existing : list (str * W)) (lowest : W) (k : nat) (req : list str) : list (str * W) :=
    match req with
    | [] => []
    | c :: req' =>
        match aget str_eqb c existing with
        | Some t => (c, t) :: required_pieces existing lowest k req'
        | None => (c, missing lowest k) :: required_pieces existing lowest (k + 1) req'
        end
    end.

  (** Filling up with the other pieces, trainer.rs:158-168. *)
  Fixpoint fill (limit : nat) (vocab : list (str * W)) (inserted : list str) (pieces : list (str * W)) : list (str * W) :=
    match vocab with
    | [] => pieces
    | (token, score) :: vocab' =>
        if existsb (str_eqb token) inserted then fill limit vocab' inserted pieces
        else
          let pieces' := pieces ++ [(token, if is_nan score then a_zero A else score)] in
          if length pieces' =? limit then pieces' else fill limit vocab' (token :: inserted) pieces'
    end.

  (** [pieces.sort_by(|(_, a), (_, b)| b.partial_cmp(a).unwrap())], trainer.rs:169. *)
  Fixpoint insert_piece (x : str * W) (l : list (str * W)) : list (str * W) :=
    match l with
    | [] => [x]
    | y :: l' => if a_gtb A (snd y) (snd x) then y :: insert_piece x l' else x :: l
    end.
  Definition sort_pieces (l : list (str * W)) : res ut_error (list (str * W)) :=
    if (2 <=? length l) && existsb (fun p => is_nan (snd p)) l then Panic else Ok (fold_right insert_piece [] l).

  (** [iter().enumerate().find_map(...)], trainer.rs:138-144. *)
  Fixpoint position (t : str) (i : nat) (l : list str) : option nat :=
    match l with
    | [] => None
    | x :: l' => if str_eqb x t then Some i else position t (i + 1) l'
    end.

  (** [finalize], trainer.rs:113-186. *)
  Definition finalize (tr : uni_trainer) (m : unigram W) (req : list str) : res ut_error (unigram W) :=
    let existing := fold_left (fun acc p => aset str_eqb (fst p) (snd p) acc) (u_vocab m) [] in
    let pieces := required_pieces existing (u_min m) 0 req in
    let (unk_id, add) :=
      match ut_unk tr with
      | Some unk => match position unk 0 (ut_special tr) with
                    | Some i => (Some (N.of_nat i), [])
                    | None => (Some 0%N, [(unk, a_zero A)])
                    end
      | None => (None, [])
      end in
    if ut_vocab_size tr <? length (ut_special tr) + length add then Panic
    else
      let limit := ut_vocab_size tr - length (ut_special tr) - length add in
      let! pieces' := sort_pieces (fill limit (u_vocab m) (training_unk :: req) pieces) in
      lift_uni (uni_from A ((add ++ map (fun t => (t, a_zero A)) (ut_special tr)) ++ pieces') unk_id (u_fallback m)).

  (** [required_chars], trainer.rs:188-195. *)
  Definition required_chars (tr : uni_trainer) (wc : list (str * N)) : list str :=
    arrange (map (fun c => [c]) (nodup N.eq_dec (flat_map fst wc ++ ut_initial tr))).

  (** [run_m_step], trainer.rs:492-528; the first piece is always kept. *)
  Fixpoint m_kept (i : nat) (expected : nat -> W) (pieces : list (str * W)) : list (str * W) :=
    match pieces with
    | [] => []
    | (t, _) :: pieces' => if enough (expected i) then (t, expected i) :: m_kept (i + 1) expected pieces' else m_kept (i + 1) expected pieces'
    end.
  Definition m_step (expected : nat -> W) (pieces : list (str * W)) : list (str * W) :=
    match pieces with
    | [] => []
    | (t, _) :: pieces' =>
        let kept := m_kept 1 expected pieces' in
        let sum := fold_left (fun s p => a_add A s (snd p)) kept (a_zero A) in
        map (fun p => (fst p, rescore sum (snd p))) ((t, nan) :: kept)
    end.

  (** The iterations between two prunings, trainer.rs:572-593. *)
  Fixpoint em_sub (n step : nat) (pieces : list (str * W)) : res ut_error (list (str * W)) :=
    match n with
    | O => Ok pieces
    | S n' =>
        let! expected := of_option (e_step step pieces) in
        let pieces' := m_step expected pieces in
        let! _ := lift_uni (uni_from A pieces' (Some 0%N) false) in
        em_sub n' (step + 1) pieces'
    end.

  (** The loop, trainer.rs:571-604, [fuel] times at most. *)
  Fixpoint em_loop (fuel : nat) (tr : uni_trainer) (step : nat) (pieces : list (str * W)) : res ut_error (list (str * W)) :=
    match fuel with
    | O => Panic
    | S fuel' =>
        let! pieces1 := em_sub (ut_sub_iterations tr) step pieces in
        if length pieces1 <=? (ut_vocab_size tr * 11) / 10 then Ok pieces1
        else
          let! pieces2 := of_option (prune (step + ut_sub_iterations tr) pieces1) in
          let! _ := lift_uni (uni_from A pieces2 (Some 0%N) false) in
          em_loop fuel' tr (step + ut_sub_iterations tr + 1) pieces2
    end.

  (** [do_train], trainer.rs:529-611; the model is replaced. *)
  Definition uni_train (fuel : nat) (tr : uni_trainer) (wc : list (str * N)) : res ut_error (unigram W * list str) :=
    let pieces := (training_unk, nan) :: seed wc in
    let req := required_chars tr wc in
    if ut_vocab_size tr <? length req then Err EVocabularyTooSmall
    else
      let! _ := lift_uni (uni_from A pieces (Some 0%N) false) in
      let! pieces1 := em_loop fuel tr 0 pieces in
      let! model := lift_uni (uni_from A pieces1 (Some 0%N) false) in
      let! final := finalize tr model req in
      Ok (final, ut_special tr).
End unigram.
