From Coq Require Import Permutation.
From Verif Require Import Base EncodingModel EncodingSpec EncodingProofs.

(** ** Induction over the nested structure *)
Section EncInd.
  Context (P : encoding -> Prop)
    (H : forall e, Forall P (overflowing e) -> P e).
  Fixpoint enc_ind' (e : encoding) : P e :=
    H e ((fix go (l : list encoding) : Forall P l :=
            match l with
            | [] => Forall_nil P
            | x :: l' => Forall_cons x (enc_ind' x) (go l')
            end) (overflowing e)).
End EncInd.

Ltac unfold_enc := cbn [ids type_ids tokens words offsets special_tokens_mask attention_mask
                        overflowing sequence_ranges set_overflowing set_ranges set_type_ids
                        set_offsets empty_enc] in *.

(** ** Rows of concatenations *)

Lemma rows_app a b o m :
  same_lengths a ->
  rows (mkEnc (ids a ++ ids b) (type_ids a ++ type_ids b) (tokens a ++ tokens b)
          (words a ++ words b) (offsets a ++ offsets b)
          (special_tokens_mask a ++ special_tokens_mask b)
          (attention_mask a ++ attention_mask b) o m) = rows a ++ rows b.
Proof.
  intros (H1 & H2 & H3 & H4 & H5 & H6); unfold rows, enc_len in *; unfold_enc.
  rewrite !combine_app, map_app; [reflexivity|..]; rewrite ?combine_length; try congruence.
  all: rewrite ?H1, ?H2, ?H3, ?H4, ?H5, ?H6, ?Nat.min_id; reflexivity.
Qed.

Lemma rows_repeat pid pty ptk n :
  rows (mkEnc (repeat pid n) (repeat pty n) (repeat ptk n) (repeat None n) (repeat (0, 0) n)
          (repeat 1%N n) (repeat 0%N n) [] []) = repeat (pad_row pid pty ptk) n.
Proof. unfold rows; unfold_enc. rewrite !combine_repeat, map_repeat'; reflexivity. Qed.

Lemma rows_set_overflowing e o : rows (set_overflowing e o) = rows e.
Proof. reflexivity. Qed.

Lemma rows_set_ranges e o : rows (set_ranges e o) = rows e.
Proof. reflexivity. Qed.

(** ** Padding *)

Lemma pad_one_main n pid pty ptk d e :
  same_lengths e ->
  rows (pad_one n pid pty ptk d e) =
    match d with
    | DLeft => repeat (pad_row pid pty ptk) (n - enc_len e) ++ rows e
    | DRight => rows e ++ repeat (pad_row pid pty ptk) (n - enc_len e)
    end /\
  same_lengths (pad_one n pid pty ptk d e) /\
  enc_len (pad_one n pid pty ptk d e) = Nat.max n (enc_len e) /\
  overflowing (pad_one n pid pty ptk d e) = overflowing e.
Proof.
  intros Hp; pose proof Hp as Hp0; destruct Hp as (H1 & H2 & H3 & H4 & H5 & H6);
    unfold pad_one, enc_len in *.
  destruct (Nat.leb_spec n (length (ids e))) as [Hle|Hgt].
  { replace (n - length (ids e)) with 0 by lia; cbn [repeat].
    repeat split; try assumption; try lia; destruct d; rewrite ?app_nil_r; reflexivity. }
  set (k := n - length (ids e)) in *.
  set (pd := mkEnc (repeat pid k) (repeat pty k) (repeat ptk k) (repeat None k) (repeat (0, 0) k)
          (repeat 1%N k) (repeat 0%N k) [] []).
  assert (Hpd : same_lengths pd).
  { unfold same_lengths, enc_len, pd; unfold_enc; rewrite !repeat_length; repeat split. }
  destruct d; (split; [|split; [|split]]).
  - rewrite <- rows_repeat. apply (rows_app pd e); exact Hpd.
  - unfold same_lengths, enc_len; unfold_enc; clear pd Hpd; rewrite !app_length, !repeat_length; repeat split; congruence.
  - unfold_enc; rewrite app_length, repeat_length; lia.
  - reflexivity.
  - rewrite <- rows_repeat. apply (rows_app e pd); exact Hp0.
  - unfold same_lengths, enc_len; unfold_enc; clear pd Hpd; rewrite !app_length, !repeat_length; repeat split; congruence.
  - unfold_enc; rewrite app_length, repeat_length; lia.
  - reflexivity.
Qed.

Lemma pad_unfold n pid pty ptk d e :
  pad n pid pty ptk d e =
  pad_one n pid pty ptk d (set_overflowing e (map (pad n pid pty ptk d) (overflowing e))).
Proof. destruct e; reflexivity. Qed.

Lemma same_lengths_set_overflowing e o : same_lengths e -> same_lengths (set_overflowing e o).
Proof. intros H; exact H. Qed.

Lemma pad_parallel n pid pty ptk d e : parallel e -> parallel (pad n pid pty ptk d e).
Proof.
  induction e as [e IH] using enc_ind'; intros [Hs Ho].
  rewrite pad_unfold.
  destruct (pad_one_main n pid pty ptk d (set_overflowing e (map (pad n pid pty ptk d) (overflowing e)))) as
    (H1 & H2 & H3 & H4); [exact Hs|].
  constructor; [exact H2|].
  rewrite H4; unfold_enc. rewrite Forall_map.
  rewrite Forall_forall in *; intros x Hx; apply IH; auto.
Qed.

Lemma pad_one_ranges n pid pty ptk d e :
  sequence_ranges (pad_one n pid pty ptk d e) =
  map (fun '(s, (a, b)) => match d with
                         | DLeft => (s, (a + (n - enc_len e), b + (n - enc_len e)))
                         | DRight => (s, (a, b))
                         end) (sequence_ranges e).
Proof.
  unfold pad_one, enc_len; destruct (Nat.leb_spec n (length (ids e))) as [Hle|Hgt].
  - replace (n - length (ids e)) with 0 by lia.
    rewrite <- (map_id (sequence_ranges e)) at 1; apply map_ext; intros (s & a & b).
    destruct d; rewrite ?Nat.add_0_r; reflexivity.
  - destruct d; unfold_enc.
    + unfold shift_ranges; apply map_ext; intros (s & a & b); reflexivity.
    + rewrite <- (map_id (sequence_ranges e)) at 1; apply map_ext; intros (s & a & b); reflexivity.
Qed.

Lemma pad_padded n pid pty ptk d e :
  parallel e -> padded n (pad_row pid pty ptk) d e (pad n pid pty ptk d e).
Proof.
  induction e as [e IH] using enc_ind'; intros [Hs Ho].
  rewrite pad_unfold.
  destruct (pad_one_main n pid pty ptk d (set_overflowing e (map (pad n pid pty ptk d) (overflowing e)))) as
    (H1 & H2 & H3 & H4); [exact Hs|].
  constructor.
  - rewrite H1; reflexivity.
  - rewrite pad_one_ranges; reflexivity.
  - rewrite H4; unfold_enc.
    clear -IH Ho; induction (overflowing e) as [|x l IHl]; cbn [map]; constructor.
    + inversion IH; inversion Ho; subst; auto.
    + inversion IH; inversion Ho; subst; auto.
Qed.

Lemma pad_len n pid pty ptk d e : parallel e -> enc_len (pad n pid pty ptk d e) = Nat.max n (enc_len e).
Proof.
  intros [Hs Ho]; rewrite pad_unfold.
  destruct (pad_one_main n pid pty ptk d (set_overflowing e (map (pad n pid pty ptk d) (overflowing e)))) as
    (H1 & H2 & H3 & H4); [exact Hs|]. exact H3.
Qed.

Lemma pad_noop n pid pty ptk d e :
  (forall o, In o (overflowing e) -> pad n pid pty ptk d o = o) ->
  n <= enc_len e -> pad n pid pty ptk d e = e.
Proof.
  intros Ho Hn; rewrite pad_unfold; unfold pad_one; unfold_enc.
  unfold enc_len in Hn; destruct (Nat.leb_spec n (length (ids e))); [|lia].
  rewrite (map_ext_in _ (fun x => x)) by exact Ho; rewrite map_id; destruct e; reflexivity.
Qed.

Lemma pad_idempotent n pid pty ptk d pid' pty' ptk' d' e :
  parallel e ->
  pad n pid' pty' ptk' d' (pad n pid pty ptk d e) = pad n pid pty ptk d e.
Proof.
  induction e as [e IH] using enc_ind'; intros [Hs Ho].
  apply pad_noop.
  - rewrite pad_unfold.
    destruct (pad_one_main n pid pty ptk d (set_overflowing e (map (pad n pid pty ptk d) (overflowing e)))) as
      (H1 & H2 & H3 & H4); [exact Hs|].
    rewrite H4; unfold_enc; intros o Hin; apply in_map_iff in Hin; destruct Hin as (x & <- & Hx).
    rewrite Forall_forall in *; apply IH; auto.
  - rewrite pad_len by (constructor; assumption); lia.
Qed.

(** ** Merging *)

Lemma merge_with_unfold g a b :
  merge_with g a b =
  merge_main g a b
    (flat_map (fun x => merge_with g x b :: map (merge_with g x) (overflowing b)) (overflowing a)
     ++ map (merge_with g a) (overflowing b)).
Proof. destruct a, b; reflexivity. Qed.

Lemma rows_shift k e :
  rows (set_offsets e (shift_offsets k (offsets e))) = map (shift_row k) (rows e).
Proof.
  unfold rows; unfold_enc; unfold shift_offsets.
  generalize (special_tokens_mask e) (attention_mask e) (ids e) (type_ids e) (tokens e) (words e).
  intros sm am i ty tk w.
  revert i ty tk w sm am; induction (offsets e) as [|o os IH]; intros i ty tk w sm am.
  - destruct i, ty, tk, w; reflexivity.
  - destruct i; [reflexivity|]. destruct ty; [reflexivity|]. destruct tk; [reflexivity|].
    destruct w; [reflexivity|]. destruct sm; [reflexivity|]. destruct am; [reflexivity|].
    cbn [map combine]; f_equal; apply IH.
Qed.

Lemma rows_offsets e : same_lengths e -> map r_off (rows e) = offsets e.
Proof.
  intros (H1 & H2 & H3 & H4 & H5 & H6); unfold rows, enc_len in *.
  destruct e as [i ty tk w o sm am ov rg]; unfold_enc; clear ov rg.
  revert ty tk w o sm am H1 H2 H3 H4 H5 H6; induction i as [|x i IH]; intros;
    destruct ty, tk, w, o, sm, am; cbn in *; try lia; [reflexivity|].
  f_equal; apply IH; lia.
Qed.

Lemma starting_offset_spec e : same_lengths e -> starting_offset true (offsets e) = last_end (rows e).
Proof.
  intros H; unfold starting_offset, last_end; rewrite <- (rows_offsets e H), <- map_rev.
  destruct (rows e) as [|r l] using rev_ind; [reflexivity|].
  rewrite rev_app_distr, last_last; reflexivity.
Qed.

Lemma shift_offsets_0 os : shift_offsets 0 os = os.
Proof.
  unfold shift_offsets; rewrite <- (map_id os) at 2; apply map_ext; intros [a b]; cbn.
  rewrite !Nat.add_0_r; reflexivity.
Qed.

Lemma shift_offsets_length k os : length (shift_offsets k os) = length os.
Proof. apply map_length. Qed.

Lemma rows_merge_main g a b o :
  same_lengths a -> rows (merge_main g a b o) = juxtapose g (rows a) (rows b).
Proof.
  intros Ha; unfold merge_main, juxtapose.
  pose proof (rows_app a (set_offsets b (shift_offsets (starting_offset g (offsets a)) (offsets b)))
     o (merge_ranges (enc_len a) (sequence_ranges a) (sequence_ranges b)) Ha) as H; unfold_enc.
  rewrite H; f_equal. destruct g.
  - rewrite rows_shift, starting_offset_spec by exact Ha; reflexivity.
  - cbn [starting_offset]; rewrite shift_offsets_0; destruct b; reflexivity.
Qed.

Lemma same_lengths_merge_main g a b o :
  same_lengths a -> same_lengths b -> same_lengths (merge_main g a b o).
Proof.
  intros (H1 & H2 & H3 & H4 & H5 & H6) (G1 & G2 & G3 & G4 & G5 & G6).
  unfold same_lengths, merge_main, enc_len in *; unfold_enc.
  rewrite !app_length, shift_offsets_length; repeat split; congruence.
Qed.

Lemma rows_merge_with g a b :
  same_lengths a -> rows (merge_with g a b) = juxtapose g (rows a) (rows b).
Proof. intros Ha; rewrite merge_with_unfold; apply rows_merge_main; exact Ha. Qed.

Lemma overflowing_merge_with g a b :
  overflowing (merge_with g a b) =
  flat_map (fun x => merge_with g x b :: map (merge_with g x) (overflowing b)) (overflowing a)
     ++ map (merge_with g a) (overflowing b).
Proof. rewrite merge_with_unfold; reflexivity. Qed.

Lemma merge_with_parallel g a : forall b, parallel a -> parallel b -> parallel (merge_with g a b).
Proof.
  induction a as [a IHa] using enc_ind'; intros b Ha.
  induction b as [b IHb] using enc_ind'; intros Hb.
  rewrite merge_with_unfold; constructor.
  - apply same_lengths_merge_main; apply same_lengths_parallel; assumption.
  - cbn [overflowing merge_main].
    destruct Ha as [Ha Hao]; destruct Hb as [Hb Hbo].
    assert (Pb : parallel b) by (constructor; assumption).
    rewrite Forall_forall in *.
    intros x Hx; apply in_app_or in Hx; destruct Hx as [Hx|Hx].
    + apply in_flat_map in Hx; destruct Hx as (y & Hy & [<-|Hx]).
      * apply IHa; auto.
      * apply in_map_iff in Hx; destruct Hx as (z & <- & Hz); apply IHa; auto.
    + apply in_map_iff in Hx; destruct Hx as (z & <- & Hz); apply IHb; auto.
Qed.

Lemma empty_parallel : parallel empty_enc.
Proof. constructor; [repeat split|constructor]. Qed.

Lemma merge_parallel_from g l : forall acc, parallel acc -> Forall parallel l ->
  parallel (fold_left (merge_with g) l acc).
Proof.
  induction l as [|x l IH]; intros acc Ha Hl; cbn [fold_left]; [exact Ha|].
  inversion Hl; subst; apply IH; [apply merge_with_parallel|]; assumption.
Qed.

Lemma merge_parallel g l : Forall parallel l -> parallel (merge g l).
Proof. intros H; apply merge_parallel_from; [apply empty_parallel|exact H]. Qed.

Lemma rows_merge_from g l : forall acc, parallel acc -> Forall parallel l ->
  rows (fold_left (merge_with g) l acc) = fold_left (juxtapose g) (map rows l) (rows acc).
Proof.
  induction l as [|x l IH]; intros acc Ha Hl; cbn [fold_left map]; [reflexivity|].
  inversion Hl; subst. rewrite IH; [|apply merge_with_parallel; assumption|assumption].
  rewrite rows_merge_with by (apply same_lengths_parallel; assumption); reflexivity.
Qed.

Lemma rows_merge g l : Forall parallel l -> rows (merge g l) = fold_left (juxtapose g) (map rows l) [].
Proof. intros H; unfold merge; rewrite rows_merge_from; [reflexivity|apply empty_parallel|exact H]. Qed.

Lemma fold_juxtapose_false ls : forall acc, fold_left (juxtapose false) ls acc = acc ++ concat ls.
Proof.
  induction ls as [|x ls IH]; intros acc; cbn [fold_left concat]; [now rewrite app_nil_r|].
  rewrite IH; unfold juxtapose; now rewrite app_assoc.
Qed.

(** Combinations of the windows *)
Lemma flat_map_cons_perm {A B} (f : A -> B) (g : A -> list B) (l : list A) :
  Permutation (flat_map (fun x => f x :: g x) l) (map f l ++ flat_map g l).
Proof.
  induction l as [|x l IH]; cbn [flat_map map app]; [constructor|].
  constructor. rewrite IH. rewrite !app_assoc.
  apply Permutation_app_tail, Permutation_app_comm.
Qed.

Lemma merge_overflow_product g a b :
  same_lengths a -> Forall same_lengths (overflowing a) ->
  Permutation (map rows (merge_with g a b :: overflowing (merge_with g a b)))
    (map (fun '(x, y) => juxtapose g (rows x) (rows y))
         (list_prod (a :: overflowing a) (b :: overflowing b))).
Proof.
  intros Ha Hao. rewrite overflowing_merge_with.
  cbn [list_prod map app].
  rewrite rows_merge_with by exact Ha; constructor.
  rewrite !map_app, !map_map, Permutation_app_comm.
  apply Permutation_app.
  - erewrite map_ext; [reflexivity|]; intros y; apply rows_merge_with; exact Ha.
  - replace (map (fun '(x, y) => juxtapose g (rows x) (rows y))
                 (list_prod (overflowing a) (b :: overflowing b)))
      with (map rows (flat_map (fun x => merge_with g x b :: map (merge_with g x) (overflowing b))
                (overflowing a))); [reflexivity|].
    clear Ha; induction Hao as [|x l Hx Hl IH]; [reflexivity|].
    cbn [list_prod flat_map map]. rewrite !map_app; cbn [map app].
    rewrite map_map, IH, rows_merge_with by exact Hx.
    cbn [app]; f_equal. f_equal.
    rewrite map_map.
    apply map_ext; intros y; apply rows_merge_with; exact Hx.
Qed.

(** Ranges *)
Lemma ranges_insert_fresh k r m :
  ~ In k (map fst m) -> ranges_insert k r m = m ++ [(k, r)].
Proof.
  induction m as [|[k' r'] m IH]; cbn [ranges_insert map In fst app]; intros H; [reflexivity|].
  destruct (Nat.eqb_spec k k'); [subst; tauto|]. rewrite IH by tauto; reflexivity.
Qed.

Lemma merge_ranges_disjoint n m2 : forall m1,
  NoDup (map fst m1 ++ map fst m2) ->
  merge_ranges n m1 m2 = m1 ++ map (fun '(s, (a, b)) => (s, (n + a, n + b))) m2.
Proof.
  induction m2 as [|[k [a b]] m2 IH]; intros m1 Hnd.
  - unfold merge_ranges; cbn [fold_left map]; now rewrite app_nil_r.
  - unfold merge_ranges in *; cbn [fold_left fst snd map] in *.
    apply NoDup_remove in Hnd as Hnd'; destruct Hnd' as [Hnd1 Hnd2].
    rewrite ranges_insert_fresh by (intros Hin; apply Hnd2; apply in_or_app; auto).
    rewrite IH; [rewrite <- app_assoc; reflexivity|].
    rewrite map_app; cbn [map fst].
    rewrite <- app_assoc; exact Hnd.
Qed.

(** ** Histories *)

Lemma truncate_parallel e mx st d e' : parallel e -> truncate e mx st d = Ok e' -> parallel e'.
Proof.
  intros Hp Ht.
  destruct (Nat.le_gt_cases (enc_len e) mx) as [Hle|Hgt].
  { unfold truncate in Ht; unfold enc_len in Hle.
    destruct (Nat.leb_spec (length (ids e)) mx); [|lia]. inversion Ht; subst; exact Hp. }
  destruct (Nat.eq_dec mx 0) as [->|Hm].
  { unfold truncate in Ht; unfold enc_len in Hgt.
    destruct (Nat.leb_spec (length (ids e)) 0); [lia|]. cbn [Nat.eqb] in Ht.
    inversion Ht; subst. constructor; [repeat split|constructor; [exact Hp|constructor]]. }
  destruct (Nat.lt_ge_cases st mx) as [Hs|Hs].
  - destruct (truncate_main e mx st d) as (e2 & H2 & H3 & H4 & H5 & _);
      [apply same_lengths_parallel; exact Hp|lia|lia|lia|].
    rewrite H2 in Ht; inversion Ht; subst e2.
    constructor; [exact H3|].
    rewrite Forall_forall in *; intros o Ho; destruct (H5 o Ho) as (G1 & G2 & G3).
    constructor; [exact G1|rewrite G2; constructor].
  - assert (Hpan : truncate e mx st d = Panic).
    { apply truncate_panic_iff; [apply same_lengths_parallel; exact Hp|lia]. }
    rewrite Hpan in Ht; discriminate.
Qed.

Lemma from_tokens_parallel ts ty : parallel (from_tokens ts ty).
Proof.
  constructor; [|constructor].
  unfold same_lengths, enc_len, from_tokens; unfold_enc; rewrite !map_length, !repeat_length;
    repeat split.
Qed.

Lemma from_rows_parallel l : parallel (from_rows l).
Proof.
  constructor; [|constructor].
  unfold same_lengths, enc_len, from_rows; unfold_enc; rewrite !map_length; repeat split.
Qed.

(** ** Algebra of juxtaposition *)
Lemma last_end_app l1 l2 : l2 <> [] -> last_end (l1 ++ l2) = last_end l2.
Proof.
  intros H; destruct l2 as [|x l2] using rev_ind; [congruence|clear IHl2].
  unfold last_end; rewrite app_assoc, !last_last; reflexivity.
Qed.

Lemma last_end_shift k l : l <> [] -> last_end (map (shift_row k) l) = last_end l + k.
Proof.
  intros H; destruct l as [|x l] using rev_ind; [congruence|clear IHl].
  unfold last_end; rewrite map_app; cbn [map]; rewrite !last_last; reflexivity.
Qed.

Lemma shift_row_add k1 k2 r : shift_row k1 (shift_row k2 r) = shift_row (k2 + k1) r.
Proof. destruct r as [i ty tk w [a b] sm am]; unfold shift_row; cbn; do 2 f_equal; lia. Qed.

Lemma shift_row_0 r : shift_row 0 r = r.
Proof. destruct r as [i ty tk w [a b] sm am]; unfold shift_row; cbn; now rewrite !Nat.add_0_r. Qed.

Lemma juxtapose_assoc g l1 l2 l3 :
  juxtapose g (juxtapose g l1 l2) l3 = juxtapose g l1 (juxtapose g l2 l3).
Proof.
  unfold juxtapose; destruct g; [|now rewrite app_assoc].
  rewrite map_app, map_map, <- app_assoc; do 2 f_equal.
  destruct l2 as [|x l2].
  - cbn [map]; rewrite app_nil_r; apply map_ext; intros r; rewrite shift_row_add; reflexivity.
  - rewrite last_end_app, last_end_shift by discriminate.
    apply map_ext; intros r; rewrite shift_row_add; reflexivity.
Qed.

Lemma juxtapose_nil_l g l : juxtapose g [] l = l.
Proof.
  unfold juxtapose; destruct g; cbn [app last_end last r_off snd]; [|reflexivity].
  rewrite (map_ext _ (fun r => r)); [apply map_id|]. intros r; apply shift_row_0.
Qed.

Lemma juxtapose_nil_r g l : juxtapose g l [] = l.
Proof. unfold juxtapose; destruct g; cbn [map]; apply app_nil_r. Qed.

Lemma merge_ranges_nil n m : NoDup (map fst m) -> merge_ranges n [] m = map (fun '(s, (a, b)) => (s, (n + a, n + b))) m.
Proof. intros H; rewrite merge_ranges_disjoint by exact H; reflexivity. Qed.
