(** What a user expects of the numeric part of Unigram training. *)
From Coq Require Import Permutation Sorted.
From Verif Require Import Base EncodingModel UnigramModel UnigramSpec NBestSpec TrainersModel UnigramTrainModel.

(** [s] is a part of [w]. *)
Definition inside (s w : str) : Prop := exists a b, w = a ++ s ++ b.

(** What is needed of the suffix array: it lists parts of the text, each once. *)
Definition lists_parts (suffix : str -> list (str * N)) : Prop := forall text s n, In (s, n) (suffix text) -> inside s text.
Definition lists_once (suffix : str -> list (str * N)) : Prop := forall text, NoDup (map fst (suffix text)).

(** How often a character is in the counted words. *)
Definition char_total (wc : list (str * N)) (c : char) : N :=
  fold_right (fun e k => (snd e * N.of_nat (count_occ N.eq_dec (fst e) c) + k)%N) 0%N wc.

(** The character [c] is in the words, and is not NUL. *)
Definition word_char (wc : list (str * N)) (c : char) : Prop := c <> 0%N /\ exists w n, In (w, n) wc /\ In c w.
(** A text of 2 to [limit] characters that the suffix array lists, with its weight: its
    frequency times its length. *)
Definition listed (suffix : str -> list (str * N)) (limit : nat) (wc : list (str * N)) (t : str) (weight : N) : Prop :=
  exists n, In (t, n) (suffix (flat_string wc)) /\ 2 <= length t <= limit /\ ~ In 0%N t /\ weight = (n * N.of_nat (length t))%N.
(** Scores from weights: logarithms of shares. *)
Definition log_shares {W} (A : arith W) (T : tarith W) (weights : list (str * N)) : list (str * W) :=
  let total := fold_left (a_add A) (map (fun e => ta_of T (snd e)) weights) (a_zero A) in
  map (fun e => (fst e, ta_sub T (ta_ln T (ta_of T (snd e))) (ta_ln T total))) weights.

(** [xs] are the elements of [l] at the positions [is], none twice. *)
Definition picked {X} (l : list X) (is : list nat) (xs : list X) : Prop :=
  NoDup is /\ Forall2 (fun i x => nth_error l i = Some x) is xs.

(** Sums of counts are exact: [whole] numbers, sums of which can be put together in any way. *)
Record whole_laws {W} (A : arith W) (T : tarith W) (whole : W -> Prop) : Prop := {
  wh_of : forall n, whole (ta_of T n);
  wh_zero : whole (a_zero A);
  wh_add : forall a b, whole a -> whole b -> whole (a_add A a b);
  wh_assoc : forall a b c, whole a -> whole b -> whole c -> a_add A a (a_add A b c) = a_add A (a_add A a b) c;
  wh_zero_l : forall a, whole a -> a_add A (a_zero A) a = a;
  wh_zero_r : forall a, whole a -> a_add A a (a_zero A) = a }.

(** Numbers other than NaN can be put in order. *)
Definition loss_order {W} (A : arith W) (T : tarith W) : Prop :=
  (forall a b, ta_is_nan T a = false -> ta_is_nan T b = false -> a_gtb A a b = true -> a_gtb A b a = false) /\
  (forall a b c, ta_is_nan T a = false -> ta_is_nan T b = false -> ta_is_nan T c = false -> a_gtb A b a = false -> a_gtb A c b = false -> a_gtb A c a = false).

Section loss.
  Context {W : Type} (A : arith W) (T : tarith W).

  (** The segmentation that the Viterbi search gives. *)
  Definition chosen (m : unigram W) (s : str) (seg : list (str * N * W)) : Prop :=
    segmentation A m s seg /\ exists la nodes path, populate_nodes A m s = Ok la /\ viterbi A la = Ok (nodes, path) /\ reads la path seg.

  (** The ids of a segmentation. *)
  Definition seg_ids (seg : list (str * N * W)) : list nat := map (fun it => N.to_nat (snd (fst it))) seg.

  Definition wsum (l : list W) : W := fold_right (a_add A) (a_zero A) l.
  (** How often a token is in a segmentation. *)
  Definition uses_in (id : nat) (seg : list (str * N * W)) : nat := count_occ Nat.eq_dec (seg_ids seg) id.
  (** How often a token is used in counted, segmented words; the number of words; the number of uses of the first [n] tokens. *)
  Definition use_total (words : list (N * list (str * N * W))) (id : nat) : W := wsum (flat_map (fun e => repeat (ta_of T (fst e)) (uses_in id (snd e))) words).
  Definition all_words (words : list (N * list (str * N * W))) : W := wsum (map (fun e => ta_of T (fst e)) words).
  Definition all_uses (n : nat) (words : list (N * list (str * N * W))) : W := wsum (map (use_total words) (seq 0 n)).

  (** How much likelihood is lost, about, when token [id] is replaced by the tokens [alt]: the
      share of the token times the difference of the logarithms of the probabilities, where the
      uses of [id] are then uses of each of [alt]. *)
  Definition removal_loss (n : nat) (words : list (N * list (str * N * W))) (id : nat) (alt : list nat) : W :=
    let uses := use_total words id in
    let before := ta_sub T (ta_ln T uses) (ta_ln T (all_uses n words)) in
    let total_after := a_add A (all_uses n words) (ta_mul T uses (ta_of T (N.of_nat (length alt - 1)))) in
    let after := fold_left (fun acc j => a_add A acc (ta_sub T (ta_ln T (a_add A (use_total words j) uses)) (ta_ln T total_after))) alt (a_zero A) in
    ta_mul T (ta_div T uses (all_words words)) (ta_sub T before after).
End loss.

(** The pieces after [r] rounds of the loop of the training, none of which was the last or failed. *)
Fixpoint after_rounds {W} (A : arith W) nan enough rescore (e_step : nat -> list (str * W) -> option (nat -> W)) prune (tr : uni_trainer) (r step : nat) (pieces : list (str * W)) : option (list (str * W)) :=
  match r with
  | O => Some pieces
  | S r' =>
      match em_sub A nan enough rescore e_step (ut_sub_iterations tr) step pieces with
      | Ok pieces1 =>
          if length pieces1 <=? (ut_vocab_size tr * 11) / 10 then None
          else
            match prune (step + ut_sub_iterations tr) pieces1 with
            | Some pieces2 => after_rounds A nan enough rescore e_step prune tr r' (step + ut_sub_iterations tr + 1) pieces2
            | None => None
            end
      | _ => None
      end
  end.
