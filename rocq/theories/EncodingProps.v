(** Theorems about encodings: C01-C09. *)
From Coq Require Import Permutation.
From Verif Require Import Base EncodingModel EncodingSpec EncodingProofs EncodingProofs2
  EncodingProofs3 TruncPadModel TruncPadProofs.

(** A small encoding with [n] tokens numbered from [k], used by the examples. *)
Definition sample (k n : nat) : encoding :=
  from_rows (map (fun i => (N.of_nat i, [N.of_nat (97 + i)], (i, i + 1), Some (N.of_nat (i / 2)), 0%N))
                 (seq k n)).

(** ** C01 *)
Theorem C01_truncate_windows : forall e max stride d,
  same_lengths e -> 0 < max -> max < enc_len e -> stride < max ->
  exists e', truncate e max stride d = Ok e' /\
    (* all windows are proper tables, without ranges or further overflow *)
    Forall (fun w => same_lengths w /\ sequence_ranges w = []) (e' :: overflowing e') /\
    Forall (fun w => overflowing w = []) (overflowing e') /\
    (* they tile the input table from its start (Right) or its end (Left) *)
    match d with
    | DRight => tiles max stride (rows e) (map rows (e' :: overflowing e'))
    | DLeft => tiles_from_end max stride (rows e) (map rows (e' :: overflowing e'))
    end.
Proof.
  intros e mx st d H1 H2 H3 H4.
  destruct (truncate_main e mx st d H1 H2 H3 H4) as (e' & G1 & G2 & G3 & G4 & G5).
  exists e'; split; [exact G1|split; [|split]].
  - constructor; [split; assumption|].
    eapply Forall_impl; [|exact G4]; cbn beta; tauto.
  - eapply Forall_impl; [|exact G4]; cbn beta; tauto.
  - exact G5.
Qed.

Theorem C01_truncate_fits : forall e max stride d,
  enc_len e <= max -> truncate e max stride d = Ok e.
Proof.
  intros e mx st d H; unfold truncate; unfold enc_len in H.
  destruct (Nat.leb_spec (length (ids e)) mx); [reflexivity|lia].
Qed.

Theorem C01_truncate_zero : forall e stride d,
  0 < enc_len e ->
  exists e', truncate e 0 stride d = Ok e' /\ rows e' = [] /\ overflowing e' = [e].
Proof.
  intros e st d H; unfold truncate; unfold enc_len in H.
  destruct (Nat.leb_spec (length (ids e)) 0); [lia|]. cbn [Nat.eqb].
  eexists; split; [reflexivity|]; split; reflexivity.
Qed.

Example C01_example :
  exists e', truncate (sample 0 7) 3 1 DRight = Ok e' /\
    map (fun w => ids w) (e' :: overflowing e') = [[0;1;2];[2;3;4];[4;5;6]]%N /\
    same_lengths (sample 0 7) /\ 3 < enc_len (sample 0 7).
Proof. eexists; split; [vm_compute; reflexivity|split; [reflexivity|split; [repeat split|cbn; lia]]]. Qed.

Example C01_example_left :
  exists e', truncate (sample 0 8) 3 1 DLeft = Ok e' /\
    map (fun w => ids w) (e' :: overflowing e') = [[5;6;7];[3;4;5];[1;2;3];[0;1]]%N.
Proof. eexists; split; [vm_compute; reflexivity|reflexivity]. Qed.

(** ** C02 *)
Theorem C02_parallel_history : forall e ops e',
  parallel e ->
  (forall g p, In (OpMergeWith g p) ops \/ In (OpMergeBefore g p) ops -> parallel p) ->
  run_enc_ops e ops = Ok e' -> parallel e'.
Proof. intros e ops e'; apply run_enc_ops_parallel. Qed.

Theorem C02_parallel_constructors : forall ts ty l g es,
  parallel (from_tokens ts ty) /\ parallel (from_rows l) /\ parallel empty_enc /\
  (Forall parallel es -> parallel (merge g es)).
Proof.
  intros; split; [apply from_tokens_parallel|split; [apply from_rows_parallel|split; [apply empty_parallel|]]].
  apply merge_parallel.
Qed.

Theorem C02_parallel_batch : forall e pair p e' pair' es pp,
  parallel e -> opt_parallel pair ->
  truncate_encodings e pair p = Ok (e', pair') -> Forall parallel es ->
  parallel e' /\ opt_parallel pair' /\ Forall parallel (pad_encodings es pp).
Proof.
  intros e pair p e' pair' es pp H1 H2 H3 H4.
  destruct (truncate_encodings_rows _ _ _ _ _ H1 H2 H3) as (k1 & k2 & G).
  split; [tauto|split; [tauto|]].
  unfold pad_encodings; destruct es as [|x es]; [constructor|].
  apply Forall_forall; intros y Hy; apply in_map_iff in Hy; destruct Hy as (z & <- & Hz).
  apply pad_parallel; rewrite Forall_forall in H4; auto.
Qed.

Example C02_example :
  exists e', run_enc_ops (sample 0 5)
    [OpSetSequenceId 0; OpTruncate 2 1 DLeft; OpMergeWith false (sample 5 2);
     OpPad 9 0%N 0%N [] DLeft; OpSetTypeId 1%N] = Ok e' /\ enc_len e' = 9 /\
    length (overflowing e') = 3.
Proof. eexists; split; [vm_compute; reflexivity|split; reflexivity]. Qed.

(** ** C03 *)
Theorem C03_truncate_panics_iff : forall e max stride d,
  same_lengths e ->
  (truncate e max stride d = Panic <-> 0 < max /\ max < enc_len e /\ max <= stride).
Proof. exact truncate_panic_iff. Qed.

Theorem C03_truncate_otherwise_ok : forall e max stride d,
  same_lengths e -> ~ (0 < max /\ max < enc_len e /\ max <= stride) ->
  exists e', truncate e max stride d = Ok e'.
Proof.
  intros e mx st d H1 H2. destruct (truncate e mx st d) as [e'|x|] eqn:E; [eauto| |].
  - apply truncate_no_err in E; destruct E.
  - apply truncate_panic_iff in E; [tauto|exact H1].
Qed.

Example C03_example : truncate (sample 0 5) 2 2 DRight = Panic /\
  exists e', truncate (sample 0 5) 2 1 DRight = Ok e'.
Proof. split; [reflexivity|eexists; vm_compute; reflexivity]. Qed.

(** ** C04 *)
Theorem C04_pad_content : forall n pad_id pad_type pad_tok d e,
  parallel e ->
  padded n (pad_row pad_id pad_type pad_tok) d e (pad n pad_id pad_type pad_tok d e) /\
  parallel (pad n pad_id pad_type pad_tok d e) /\
  enc_len (pad n pad_id pad_type pad_tok d e) = Nat.max n (enc_len e).
Proof.
  intros; split; [apply pad_padded; assumption|split; [apply pad_parallel|apply pad_len]; assumption].
Qed.

(** Sequence membership of original tokens is unchanged, for encodings with
    recorded ranges. *)
Theorem C04_pad_membership : forall n pad_id pad_type pad_tok d e i s,
  parallel e -> sequence_ranges e <> [] ->
  let e' := pad n pad_id pad_type pad_tok d e in
  let shift := match d with DLeft => n - enc_len e | DRight => 0 end in
  belongs e i s <-> belongs e' (i + shift) s.
Proof.
  intros n pid pty ptk d e i s Hp Hne e' shift.
  destruct (pad_padded n pid pty ptk d e Hp) as [missing H1 H2 H3].
  fold e' in H1, H2, H3.
  assert (Hne' : sequence_ranges e' <> []).
  { rewrite H2; destruct (sequence_ranges e); [congruence|discriminate]. }
  unfold belongs, seq_span; split.
  - intros ([a b] & [(Hr & _)|Hin] & Hi); [congruence|cbn [fst snd] in Hi].
    destruct d.
    + exists (a + missing, b + missing); split; [right|cbn [fst snd]; unfold shift, missing; lia].
      rewrite H2; apply in_map_iff; exists (s, (a, b)); auto.
    + exists (a, b); split; [right|cbn [fst snd]; unfold shift, missing; lia].
      rewrite H2; apply in_map_iff; exists (s, (a, b)); auto.
  - intros ([a b] & [(Hr & _)|Hin] & Hi); [congruence|cbn [fst snd] in Hi].
    rewrite H2 in Hin; apply in_map_iff in Hin; destruct Hin as ((s' & x & y) & Heq & Hin).
    exists (x, y). destruct d; injection Heq as E1 E2 E3; rewrite <- E1;
      (split; [right; exact Hin|cbn [fst snd]; unfold shift, missing in *; lia]).
Qed.

Theorem C04_pad_idempotent : forall n pid pty ptk d pid' pty' ptk' d' e,
  parallel e ->
  pad n pid' pty' ptk' d' (pad n pid pty ptk d e) = pad n pid pty ptk d e.
Proof. exact pad_idempotent. Qed.

(** Finding: without recorded ranges, padding tokens count as tokens of
    sequence 0, so the membership claim fails for them: a pad position is
    reported as belonging to sequence 0. *)
Theorem C04_pad_positions_have_no_sequence_refuted :
  exists e n, parallel e /\
    let e' := pad n 0%N 0%N [] DRight e in
    nth_error (special_tokens_mask e') (enc_len e) = Some 1%N /\
    token_to_sequence e' (enc_len e) = Some 0.
Proof.
  exists (sample 0 2), 4; split; [|split; reflexivity].
  apply from_rows_parallel.
Qed.

Example C04_example :
  ids (pad 4 9%N 0%N [80%N] DLeft (sample 1 2)) = [9;9;1;2]%N /\ parallel (sample 1 2).
Proof. split; [reflexivity|apply from_rows_parallel]. Qed.

(** ** C05 *)
Definition multiple_of (m : option nat) (n : nat) : Prop :=
  match m with
  | Some k => 0 < k -> exists q, n = q * k
  | None => True
  end.

Lemma pad_target_spec p lens :
  let n := match pp_strategy p with Fixed n => n | BatchLongest => fold_right Nat.max 0 lens end in
  n <= pad_target lens p /\ multiple_of (pp_multiple p) (pad_target lens p) /\
  forall t, n <= t -> multiple_of (pp_multiple p) t -> pad_target lens p <= t.
Proof.
  unfold pad_target, multiple_of; cbn zeta.
  set (n := match pp_strategy p with Fixed n => n | BatchLongest => fold_right Nat.max 0 lens end).
  destruct (pp_multiple p) as [m|]; [|repeat split; auto].
  destruct (Nat.eq_dec m 0) as [->|Hm].
  - cbn [Nat.ltb Nat.leb andb]; repeat split; [lia|intros; lia|auto].
  - destruct (round_up_spec n m ltac:(lia)) as (H1 & H2 & H3); cbn zeta in H1, H2, H3.
    repeat split; [exact H1|intros _; exact H2|].
    intros t Ht Hmt; apply H3; [exact Ht|apply Hmt; lia].
Qed.

(** Target length of a batch: the least allowed length that is at least the
    longest input (BatchLongest) or the requested size (Fixed). *)
Definition least_allowed (m : option nat) (low L : nat) : Prop :=
  low <= L /\ multiple_of m L /\ forall L', low <= L' -> multiple_of m L' -> L <= L'.

Theorem C05_pad_batch_longest : forall es p,
  Forall parallel es -> es <> [] -> pp_strategy p = BatchLongest ->
  exists L longest,
    In longest (map enc_len es) /\ (forall e, In e es -> enc_len e <= longest) /\
    least_allowed (pp_multiple p) longest L /\
    Forall2 (fun e e' => enc_len e' = L /\
               padded L (pad_row (pp_id p) (pp_type_id p) (pp_token p)) (pp_direction p) e e')
            es (pad_encodings es p).
Proof.
  intros es p Hes Hne Hst.
  pose proof (pad_target_spec p (map enc_len es)) as HT; cbn zeta in HT; rewrite Hst in HT.
  exists (pad_target (map enc_len es) p), (fold_right Nat.max 0 (map enc_len es)).
  split; [apply max_list_in; destruct es; [congruence|discriminate]|].
  assert (Hmax : forall e, In e es -> enc_len e <= fold_right Nat.max 0 (map enc_len es)).
  { intros e He; apply max_list_ge, in_map, He. }
  split; [exact Hmax|split; [exact HT|]].
  unfold pad_encodings; destruct es as [|x0 es0]; [congruence|].
  set (L := pad_target _ p) in *. clearbody L.
  assert (Hall : forall l, (forall e, In e l -> In e (x0 :: es0)) ->
     Forall2 (fun e e' => enc_len e' = L /\
               padded L (pad_row (pp_id p) (pp_type_id p) (pp_token p)) (pp_direction p) e e')
       l (map (pad L (pp_id p) (pp_type_id p) (pp_token p) (pp_direction p)) l)).
  { induction l as [|x l IH]; intros Hin; cbn [map]; constructor.
    - assert (Hx : parallel x) by (rewrite Forall_forall in Hes; apply Hes, Hin; left; reflexivity).
      split; [|apply pad_padded; exact Hx].
      rewrite pad_len by exact Hx. specialize (Hmax x (Hin x (or_introl eq_refl))); lia.
    - apply IH; intros e He; apply Hin; right; exact He. }
  apply Hall; auto.
Qed.

Theorem C05_pad_fixed : forall es p n,
  Forall parallel es -> pp_strategy p = Fixed n ->
  exists L, least_allowed (pp_multiple p) n L /\
    Forall2 (fun e e' => enc_len e' = Nat.max L (enc_len e) /\
               padded L (pad_row (pp_id p) (pp_type_id p) (pp_token p)) (pp_direction p) e e' /\
               (L <= enc_len e -> overflowing e = [] -> e' = e))
            es (pad_encodings es p).
Proof.
  intros es p n Hes Hst.
  pose proof (pad_target_spec p (map enc_len es)) as HT; cbn zeta in HT; rewrite Hst in HT.
  exists (pad_target (map enc_len es) p); split; [exact HT|].
  unfold pad_encodings; destruct es as [|x0 es0]; [constructor|].
  set (L := pad_target _ p) in *. clearbody L. clear HT.
  induction Hes as [|x l Hx Hl IH]; cbn [map]; constructor; [|exact IH].
  split; [apply pad_len; exact Hx|split; [apply pad_padded; exact Hx|]].
  intros H1 H2; apply pad_noop; [rewrite H2; intros o []|exact H1].
Qed.

Example C05_example :
  map enc_len (pad_encodings [sample 0 5; sample 0 3]
     (mkPadParams BatchLongest DRight (Some 4) 0%N 0%N [])) = [8; 8] /\
  map enc_len (pad_encodings [sample 0 5; sample 0 3]
     (mkPadParams (Fixed 4) DRight (Some 0) 0%N 0%N [])) = [5; 4].
Proof. split; reflexivity. Qed.

(** ** C06 *)
Theorem C06_merge_rows : forall g a b,
  parallel a -> parallel b ->
  rows (merge_with g a b) = juxtapose g (rows a) (rows b) /\ parallel (merge_with g a b).
Proof.
  intros g a b Ha Hb; split; [apply rows_merge_with, same_lengths_parallel; exact Ha|].
  apply merge_with_parallel; assumption.
Qed.

Theorem C06_merge_list : forall es,
  Forall parallel es -> rows (merge false es) = concat (map rows es).
Proof. intros es H; rewrite rows_merge by exact H; apply fold_juxtapose_false. Qed.

Theorem C06_merge_assoc : forall g a b c,
  parallel a -> parallel b -> parallel c ->
  rows (merge_with g (merge_with g a b) c) = rows (merge_with g a (merge_with g b c)).
Proof.
  intros g a b c Ha Hb Hc.
  rewrite !rows_merge_with by (apply same_lengths_parallel; try apply merge_with_parallel; assumption).
  apply juxtapose_assoc.
Qed.

Theorem C06_merge_neutral : forall g a,
  parallel a -> rows (merge_with g empty_enc a) = rows a /\ rows (merge_with g a empty_enc) = rows a.
Proof.
  intros g a Ha; split.
  - rewrite rows_merge_with by (repeat split); apply juxtapose_nil_l.
  - rewrite rows_merge_with by (apply same_lengths_parallel; exact Ha); apply juxtapose_nil_r.
Qed.

Theorem C06_merge_ranges : forall g a b,
  NoDup (map fst (sequence_ranges a) ++ map fst (sequence_ranges b)) ->
  sequence_ranges (merge_with g a b) =
  sequence_ranges a ++
  map (fun '(s, (x, y)) => (s, (enc_len a + x, enc_len a + y))) (sequence_ranges b).
Proof.
  intros g a b H; rewrite merge_with_unfold; cbn [merge_main sequence_ranges].
  apply merge_ranges_disjoint; exact H.
Qed.

(** The main table and the overflowing tables are all combinations of a part
    of [a] with a part of [b], each exactly once. *)
Theorem C06_merge_overflow : forall g a b,
  parallel a ->
  rows (merge_with g a b) = juxtapose g (rows a) (rows b) /\
  Permutation (map rows (merge_with g a b :: overflowing (merge_with g a b)))
    (map (fun '(x, y) => juxtapose g (rows x) (rows y))
         (list_prod (a :: overflowing a) (b :: overflowing b))).
Proof.
  intros g a b [Ha Hao]; split; [apply rows_merge_with; exact Ha|].
  apply merge_overflow_product; [exact Ha|].
  eapply Forall_impl; [|exact Hao]; intros x Hx; apply same_lengths_parallel; exact Hx.
Qed.

Example C06_example :
  offsets (merge_with true (sample 0 2) (sample 0 2)) = [(0,1);(1,2);(2,3);(3,4)] /\
  length (overflowing (merge_with false (set_overflowing (sample 0 1) [sample 1 1; sample 2 1])
                                        (set_overflowing (sample 3 1) [sample 4 1]))) = 5 /\
  sequence_ranges (merge_with false (set_sequence_id (sample 0 2) 0) (set_sequence_id (sample 0 3) 1))
  = [(0, (0, 2)); (1, (2, 5))].
Proof. repeat split. Qed.

(** ** C07 *)
Theorem C07_char_to_token : forall e pos s r i,
  ranges_wf e -> same_lengths e -> seq_span e s r ->
  (char_to_token e pos s = Some i <->
   fst r <= i < snd r /\
   (exists o, nth_error (offsets e) i = Some o /\ covers o pos) /\
   (forall j o, fst r <= j < i -> nth_error (offsets e) j = Some o -> ~ covers o pos)).
Proof. exact char_to_token_spec. Qed.

Theorem C07_token_to_chars : forall e i s o,
  ranges_wf e -> same_lengths e ->
  (token_to_chars e i = Some (s, o) <-> belongs e i s /\ nth_error (offsets e) i = Some o).
Proof. exact token_to_chars_spec. Qed.

Theorem C07_token_to_word : forall e i s w,
  ranges_wf e -> same_lengths e ->
  (token_to_word e i = Some (s, w) <-> belongs e i s /\ nth_error (words e) i = Some (Some w)).
Proof. exact token_to_word_spec. Qed.

Theorem C07_char_to_word : forall e pos s r w,
  ranges_wf e -> same_lengths e -> seq_span e s r ->
  (char_to_word e pos s = Some w <->
   exists i, char_to_token e pos s = Some i /\ nth_error (words e) i = Some (Some w)).
Proof. exact char_to_word_spec. Qed.

Theorem C07_roundtrip : forall e i s o pos,
  ranges_wf e -> same_lengths e ->
  token_to_chars e i = Some (s, o) -> covers o pos ->
  exists j o', char_to_token e pos s = Some j /\ j <= i /\
    token_to_chars e j = Some (s, o') /\ covers o' pos.
Proof. exact char_token_roundtrip. Qed.

Theorem C07_word_to_tokens : forall e word s r,
  ranges_wf e -> same_lengths e -> seq_span e s r -> words_sorted e r ->
  match word_to_tokens e word s with
  | None => forall i, fst r <= i < snd r -> nth_error (words e) i <> Some (Some word)
  | Some (a, b) =>
      fst r <= a /\ a < b /\ b <= snd r /\
      nth_error (words e) a = Some (Some word) /\
      nth_error (words e) (b - 1) = Some (Some word) /\
      forall i, fst r <= i < snd r -> nth_error (words e) i = Some (Some word) -> a <= i < b
  end.
Proof. exact word_to_tokens_spec. Qed.

Theorem C07_word_to_chars : forall e word s r,
  ranges_wf e -> same_lengths e -> seq_span e s r -> words_sorted e r ->
  match word_to_tokens e word s with
  | None => word_to_chars e word s = Ok None
  | Some (a, b) => exists o1 o2, nth_error (offsets e) a = Some o1 /\
                     nth_error (offsets e) (b - 1) = Some o2 /\
                     word_to_chars e word s = Ok (Some (fst o1, snd o2))
  end.
Proof. exact word_to_chars_spec. Qed.

(** A pair encoding with two ranges: hypotheses of the lookups are met. *)
Definition pair_sample : encoding :=
  merge_with false (set_sequence_id (sample 0 4) 0) (set_sequence_id (sample 0 3) 1).

Example C07_example :
  ranges_wf pair_sample /\ same_lengths pair_sample /\ seq_span pair_sample 1 (4, 7) /\
  words_sorted pair_sample (4, 7) /\
  char_to_token pair_sample 1 1 = Some 5 /\ word_to_tokens pair_sample 0%N 1 = Some (4, 6) /\
  token_to_chars pair_sample 5 = Some (1, (1, 2)).
Proof.
  assert (Hr : sequence_ranges pair_sample = [(0, (0, 4)); (1, (4, 7))]) by reflexivity.
  split; [|split; [repeat split|split; [right; rewrite Hr; cbn; auto|split; [|repeat split]]]].
  - split; [rewrite Hr; repeat constructor; cbn; lia|].
    split; rewrite Hr; cbn [In].
    + intros s r [H|[H|[]]]; inversion H; subst; cbn; lia.
    + intros s1 s2 r1 r2 [H|[H|[]]] [G|[G|[]]]; inversion H; inversion G; subst; try congruence;
        intros _ i; cbn; lia.
  - intros i j wi wj Hi Hij Hj; cbn [fst snd] in *.
    assert (Ci : i = 4 \/ i = 5 \/ i = 6) by lia; assert (Cj : j = 4 \/ j = 5 \/ j = 6) by lia.
    destruct Ci as [-> | [-> | ->]]; destruct Cj as [-> | [-> | ->]]; try lia;
      cbn; intros H1 H2; inversion H1; inversion H2; subst; lia.
Qed.

(** ** C08 *)
Theorem C08_token_to_sequence : forall e i s,
  ranges_wf e -> i <> enc_len e \/ sequence_ranges e <> [] ->
  (token_to_sequence e i = Some s <-> belongs e i s).
Proof.
  intros e i s Hw Hor. destruct (Nat.lt_ge_cases i (enc_len e)) as [Hi|Hi].
  - apply token_to_sequence_spec; assumption.
  - rewrite token_to_sequence_out by assumption.
    split; [discriminate|]. intros H; apply belongs_lt in H; [lia|exact Hw].
Qed.

(** Finding: index [len] is reported as a token of sequence 0 on an encoding
    without ranges (encoding.rs:213 compares with [>]). *)
Theorem C08_out_of_range_refuted :
  exists e i s, same_lengths e /\ ranges_wf e /\ i >= enc_len e /\
    token_to_sequence e i = Some s /\ ~ belongs e i s.
Proof.
  exists (sample 0 2), 2, 0. split; [repeat split|split; [|split; [cbn; lia|split; [reflexivity|]]]].
  - split; [constructor|split; [intros s r []|intros s1 s2 r1 r2 []]].
  - intros (r & [(_ & _ & ->)|[]] & H); cbn in H; lia.
Qed.

(** [get_sequence_ids] agrees with membership when the recorded sequences are
    0..n-1. *)
Theorem C08_get_sequence_ids : forall e,
  ranges_wf e -> (forall s, s < n_sequences e <-> exists r, seq_span e s r) ->
  exists l, get_sequence_ids e = Ok l /\ length l = enc_len e /\
    forall i s, nth_error l i = Some (Some s) <-> belongs e i s.
Proof. exact get_sequence_ids_spec. Qed.

(** Finding: when only sequence 1 is recorded (e.g. [set_sequence_id(1)] on a
    fresh encoding), [get_sequence_ids] says 0 where [token_to_sequence] says 1. *)
Theorem C08_get_sequence_ids_agree_refuted :
  exists e l i, ranges_wf e /\ same_lengths e /\ get_sequence_ids e = Ok l /\
    nth_error l i = Some (Some 0) /\ token_to_sequence e i = Some 1.
Proof.
  exists (set_sequence_id (sample 0 2) 1), [Some 0; Some 0], 0.
  split; [|repeat split].
  split; [repeat constructor; cbn; tauto|split].
  - cbn; intros s r [H|[]]; inversion H; subst; cbn; lia.
  - cbn; intros s1 s2 r1 r2 [H|[]] [G|[]]; inversion H; inversion G; subst; congruence.
Qed.

Example C08_example :
  token_to_sequence pair_sample 5 = Some 1 /\
  get_sequence_ids pair_sample = Ok [Some 0; Some 0; Some 0; Some 0; Some 1; Some 1; Some 1].
Proof. split; reflexivity. Qed.

(** ** C09 *)
Theorem C09_truncate_encodings : forall e pair p e' pair',
  parallel e -> opt_parallel pair ->
  truncate_encodings e pair p = Ok (e', pair') ->
  exists k1 k2,
    k1 <= enc_len e /\ k2 <= opt_len pair /\
    k1 + k2 = Nat.min (tp_max_length p) (enc_len e + opt_len pair) /\
    rows e' = kept (tp_direction p) k1 (rows e) /\
    opt_rows pair' = kept (tp_direction p) k2 (opt_rows pair) /\
    (pair = None <-> pair' = None) /\
    parallel e' /\ opt_parallel pair' /\
    match tp_strategy p with
    | LongestFirst => (k1 < enc_len e -> k2 <= k1 + 1) /\ (k2 < opt_len pair -> k1 <= k2 + 1)
    | OnlyFirst => 0 < tp_max_length p -> k2 = opt_len pair /\ pair' = pair
    | OnlySecond => 0 < tp_max_length p -> k1 = enc_len e /\ e' = e
    end.
Proof. exact truncate_encodings_rows. Qed.

Theorem C09_fits_unchanged : forall e pair p,
  0 < tp_max_length p -> enc_len e + opt_len pair <= tp_max_length p ->
  truncate_encodings e pair p = Ok (e, pair).
Proof.
  intros e pair p H1 H2; unfold truncate_encodings.
  destruct (Nat.eqb_spec (tp_max_length p) 0); [lia|].
  destruct (Nat.leb_spec (enc_len e + opt_len pair) (tp_max_length p)); [reflexivity|lia].
Qed.

Theorem C09_errors : forall e pair p x,
  truncate_encodings e pair p = Err x <->
  0 < tp_max_length p /\ tp_max_length p < enc_len e + opt_len pair /\
  ((x = SecondSequenceNotProvided /\ tp_strategy p = OnlySecond /\ pair = None) \/
   (x = SequenceTooShort /\ tp_strategy p = OnlyFirst /\ tp_max_length p <= opt_len pair) \/
   (x = SequenceTooShort /\ tp_strategy p = OnlySecond /\ pair <> None /\ tp_max_length p <= enc_len e)).
Proof. exact truncate_encodings_err. Qed.

Theorem C09_no_panic_without_stride : forall e pair p,
  parallel e -> opt_parallel pair -> tp_stride p = 0 -> truncate_encodings e pair p <> Panic.
Proof. exact truncate_encodings_no_panic. Qed.

Example C09_example :
  exists e' o', truncate_encodings (sample 0 4) (Some (sample 0 8))
      (mkTruncParams DRight 7 LongestFirst 0) = Ok (e', Some o') /\
    enc_len e' = 3 /\ enc_len o' = 4.
Proof. eexists; eexists; split; [vm_compute; reflexivity|split; reflexivity]. Qed.
