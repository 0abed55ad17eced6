(** What a user expects of saving and loading models. *)
From Coq Require Import String.
From Coq Require Export Sorting.Permutation Sorting.Sorted.
From Verif Require Import Base StrBytes AMap EncodingModel BpeWordModel BpeModel BpeSpec WordPieceModel UnigramModel ModelFilesModel.

(** Sorts by ascending rank and by ascending id: ties are free. *)
Definition rank_sort (by_rank : list ((N * N) * (N * N)) -> list ((N * N) * (N * N))) : Prop :=
  forall l, Permutation l (by_rank l) /\ StronglySorted (fun a b => (fst (snd a) <= fst (snd b))%N) (by_rank l).
Definition id_sort (by_id : list (str * N) -> list (str * N)) : Prop :=
  forall l, Permutation l (by_id l) /\ StronglySorted (fun a b => (snd a <= snd b)%N) (by_id l).

(** A probability that the builder accepts is finite and keeps its class. *)
Definition floats_ok {W} (F : floats W) : Prop :=
  forall d, d = DZero \/ d = DPositive -> f_finite F (f_prob F d) = true /\ f_class F (f_prob F d) = d.

(** The same JSON value with the fields of its objects in any order. *)
Inductive rearranged {W} : json W -> json W -> Prop :=
| re_same j : rearranged j j
| re_array l l' : Forall2 rearranged l l' -> rearranged (JArr l) (JArr l')
| re_object l l' l'' : Forall2 (fun a b => fst a = fst b /\ rearranged (snd a) (snd b)) l l' -> Permutation l' l'' -> rearranged (JObj l) (JObj l'').

(** Without the field "type", as older versions wrote it. *)
Definition without_type {W} (j : json W) : json W :=
  match j with JObj l => JObj (filter (fun kv => negb (str_eqb (fst kv) (key "type"))) l) | _ => j end.

(** A vocabulary that can be written: no token and no id twice, no id above
    2^32 - 2. *)
Definition writable (vocab : list (str * N)) : Prop :=
  NoDup (map fst vocab) /\ NoDup (map snd vocab) /\ forall t i, In (t, i) vocab -> (i < 2 ^ 32 - 1)%N.

(** Two lists without equal keys that are the same hash map. *)
Definition same_map {K V} (a b : list (K * V)) : Prop := NoDup (map fst b) /\ Permutation a b.

(** The place of a rank among the ranks of a table: how many are below. *)
Definition place (m : bpe) (r : N) : N := N.of_nat (length (filter (fun e => N.ltb (fst (snd e)) r) (b_merges m))).

(** The same settings, vocabulary and merges; the merges are numbered by their
    place. *)
Definition same_bpe (m m' : bpe) : Prop :=
  same_map (b_vocab m) (b_vocab m') /\
  (forall t i, b_token m' i = Some t <-> b_token m i = Some t) /\
  (forall a b r' n, b_lookup m' a b = Some (r', n) <-> exists r, b_lookup m a b = Some (r, n) /\ r' = place m r) /\
  (b_dropout m', b_unk m', b_prefix m', b_suffix m') = (b_dropout m, b_unk m, b_prefix m, b_suffix m) /\
  (b_fuse m', b_fallback m', b_ignore_merges m') = (b_fuse m, b_fallback m, b_ignore_merges m).

Definition same_model {W} (m m' : @model W) : Prop :=
  match m, m' with
  | MBpe m, MBpe m' => same_bpe m m'
  | MWordPiece m, MWordPiece m' => same_map (w_vocab m) (w_vocab m') /\ (w_unk m', w_prefix m', w_max m') = (w_unk m, w_prefix m, w_max m)
  | MWordLevel m, MWordLevel m' => same_map (l_vocab m) (l_vocab m') /\ l_unk m' = l_unk m
  | MUnigram m, MUnigram m' => m' = m
  | _, _ => False
  end.

(** The models made by the builders, with a vocabulary that can be written. *)
Definition savable {W} (A : arith W) (F : floats W) (m : @model W) : Prop :=
  match m with
  | MBpe m => exists vocab merges prefix, built vocab merges prefix m /\ writable vocab
  | MWordPiece m => writable (w_vocab m) /\ (N.of_nat (w_max m) < 2 ^ 64)%N
  | MWordLevel m => writable (l_vocab m)
  | MUnigram m => (exists vocab unk fb, uni_from A vocab unk fb = Ok m) /\ Forall (fun e => f_finite F (snd e) = true) (u_vocab m) /\ (N.of_nat (length (u_vocab m)) <= 2 ^ 64)%N
  end.

(** Texts that a line of [merges.txt] can hold: no space, no end of line; the
    second not ending in a carriage return, the first not like the header. *)
Definition plain_part (s : str) : Prop := ~ In 32%N s /\ ~ In 10%N s.
Definition plain_merge (ab : str * str) : Prop :=
  plain_part (fst ab) /\ plain_part (snd ab) /\ (forall s, snd ab <> s ++ [13%N]) /\ (forall s, fst ab <> key "#version" ++ s).

(** Tokens that a line of [vocab.txt] can hold: no end of line, no whitespace at
    the end. *)
Definition plain_token (is_ws : char -> bool) (t : str) : Prop :=
  ~ In 10%N t /\ forall s c, t = s ++ [c] -> is_ws c = false.

(** Tokens numbered 0, 1, 2, ... *)
Definition dense (vocab : list (str * N)) : Prop :=
  NoDup (map fst vocab) /\ Permutation (map snd vocab) (map N.of_nat (seq 0 (length vocab))).
