(** Model of the sums over all segmentations in
    /repo/tokenizers/src/models/unigram/lattice.rs: [log_sum_exp],
    [populate_marginal] and the weights of [sample].  Scores ([f64] as
    logarithms) and counts ([f64] as numbers) are two types, so that exact
    arithmetic is an instance; their operations are arguments. *)
From Verif Require Import Base StrBytes AMap Utf8 EncodingModel BpeWordModel BpeModel TrieModel UnigramModel.

(** [vmax > vmin + 50.0]; [vmax + ((vmin - vmax).exp() + 1.0).ln()]; [-]; [exp];
    a number times a score; [*] and [+] of numbers. *)
Record marith (W K : Type) := mkMarith {
  ma_far : W -> W -> bool; ma_near : W -> W -> W; ma_sub : W -> W -> W; ma_exp : W -> K;
  ma_scale : K -> W -> W; ma_mul : K -> K -> K; ma_plus : K -> K -> K }.
Arguments mkMarith {W K}.
Arguments ma_far {W K}.
Arguments ma_near {W K}.
Arguments ma_sub {W K}.
Arguments ma_exp {W K}.
Arguments ma_scale {W K}.
Arguments ma_mul {W K}.
Arguments ma_plus {W K}.

Section marginals.
  Context {W K : Type} (A : arith W) (M : marith W K).

  (** [log_sum_exp], lattice.rs:118-136; [init] is [init_mode]. *)
  Definition log_sum_exp (x y : W) (init : bool) : W :=
    if init then y
    else
      let '(vmin, vmax) := if a_gtb A x y then (y, x) else (x, y) in
      if ma_far M vmin vmax then vmax else ma_near M vmin vmax.

  (** The innermost loop, lattice.rs:338-346, 352-360 and 388-396: the sum of the
      nodes [from] into the cell of [to].  Nodes are equal when their vocabulary
      ids are (lattice.rs:98-102), which decides where a sum starts. *)
  Fixpoint sum_into (nodes : list (lnode W)) (weigh : W -> W) (first : lnode W) (to : nat) (from : list nat) (acc : list W) : res uni_error (list W) :=
    match from with
    | [] => Ok acc
    | l :: from' =>
        let! n := of_option (nth_error nodes l) in
        let! a := of_option (nth_error acc l) in
        let! x := of_option (nth_error acc to) in
        sum_into nodes weigh first to from'
          (upd acc to (fun _ => log_sum_exp x (weigh (a_add A (ln_score n) a)) (N.eqb (ln_id n) (ln_id first))))
    end.

  (** The two inner loops at a position. *)
  Fixpoint sums_into (nodes : list (lnode W)) (weigh : W -> W) (tos from : list nat) (acc : list W) : res uni_error (list W) :=
    match tos with
    | [] => Ok acc
    | t :: tos' =>
        let! acc' :=
          match from with
          | [] => Ok acc
          | f :: _ => let! first := of_option (nth_error nodes f) in sum_into nodes weigh first t from acc
          end in
        sums_into nodes weigh tos' from acc'
    end.

  (** The loop over the positions, lattice.rs:336-348, 349-362 and 386-398. *)
  Fixpoint sweep (nodes : list (lnode W)) (weigh : W -> W) (tos froms : list (list nat)) (positions : list nat) (acc : list W) : res uni_error (list W) :=
    match positions with
    | [] => Ok acc
    | pos :: positions' =>
        let! to := of_option (nth_error tos pos) in
        let! from := of_option (nth_error froms pos) in
        let! acc' := sums_into nodes weigh to from acc in
        sweep nodes weigh tos froms positions' acc'
    end.

  Definition forward (weigh : W -> W) (la : lattice W) : res uni_error (list W) :=
    sweep (la_nodes la) weigh (la_begin la) (la_end la) (seq 0 (S (blen (la_sentence la)))) (repeat (a_zero A) (length (la_nodes la))).
  Definition backward (la : lattice W) : res uni_error (list W) :=
    sweep (la_nodes la) (fun x => x) (la_end la) (la_begin la) (rev (seq 0 (S (blen (la_sentence la))))) (repeat (a_zero A) (length (la_nodes la))).

  (** The expected counts, lattice.rs:366-376, for the nodes of one position and for all. *)
  Fixpoint count_nodes (nodes : list (lnode W)) (alpha beta : list W) (z : W) (freq : K) (here : list nat) (expected : list K) : res uni_error (list K) :=
    match here with
    | [] => Ok expected
    | i :: here' =>
        let! n := of_option (nth_error nodes i) in
        let! a := of_option (nth_error alpha i) in
        let! b := of_option (nth_error beta i) in
        let! _ := of_option (nth_error expected (N.to_nat (ln_id n))) in
        let sum := ma_sub M (a_add A (a_add A a (ln_score n)) b) z in
        count_nodes nodes alpha beta z freq here'
          (upd expected (N.to_nat (ln_id n)) (fun k => ma_plus M k (ma_mul M freq (ma_exp M sum))))
    end.
  Fixpoint count_positions (la : lattice W) (alpha beta : list W) (z : W) (freq : K) (positions : list nat) (expected : list K) : res uni_error (list K) :=
    match positions with
    | [] => Ok expected
    | pos :: positions' =>
        let! here := of_option (nth_error (la_begin la) pos) in
        let! expected' := count_nodes (la_nodes la) alpha beta z freq here expected in
        count_positions la alpha beta z freq positions' expected'
    end.

  (** [populate_marginal], lattice.rs:331-378: the counts and the result. *)
  Definition populate_marginal (la : lattice W) (freq : K) (expected : list K) : res uni_error (list K * W) :=
    let! alpha := forward (fun x => x) la in
    let! beta := backward la in
    let! eos := eos_node la in
    let! z := of_option (nth_error alpha eos) in
    let! expected' := count_positions la alpha beta z freq (seq 0 (blen (la_sentence la))) expected in
    Ok (expected', ma_scale M freq z).

  (** [sample], lattice.rs:380-423: the weights from which the node before
      [node] is drawn ([probs]); the draws are [lat_sample]. *)
  Fixpoint weights_of (nodes : list (lnode W)) (alpha : list W) (theta : K) (z : W) (ends : list nat) : res uni_error (list K) :=
    match ends with
    | [] => Ok []
    | l :: ends' =>
        let! n := of_option (nth_error nodes l) in
        let! a := of_option (nth_error alpha l) in
        let! ws := weights_of nodes alpha theta z ends' in
        Ok (ma_exp M (ma_sub M (a_add A a (ma_scale M theta (ln_score n))) z) :: ws)
    end.
  Definition sample_weights (la : lattice W) (theta : K) (node : nat) : res uni_error (list nat * list K) :=
    let! alpha := forward (ma_scale M theta) la in
    let! n := of_option (nth_error (la_nodes la) node) in
    let! z := of_option (nth_error alpha node) in
    let! ends := of_option (nth_error (la_end la) (ln_pos n)) in
    let! ws := weights_of (la_nodes la) alpha theta z ends in
    Ok (ends, ws).
End marginals.
