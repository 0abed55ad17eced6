(** Proofs about batches: schedules and padding. *)
From Verif Require Import Base ListFacts StrBytes EncodingModel EncodingSpec EncodingProofs EncodingProofs2 TruncPadModel TruncPadProofs
  PreTokModel PreTokProofs TokenizerModel TokenizerSpec EncodingProps.

(** ** Schedules *)
Section Schedule.
Context {I E A : Type} (f : I -> res E A) (inputs : list I).

Lemma slot_in : forall (slots : list (nat * A)) i, In i (map fst slots) -> exists a, slot i slots = Some a /\ In (i, a) slots.
Proof.
  induction slots as [|[j b] slots IH]; intros i H; cbn [map] in H; [destruct H|]. cbn [slot].
  destruct (Nat.eqb_spec i j) as [->|Hn]; [exists b; split; [reflexivity|left; reflexivity]|].
  destruct H as [H|H]; [cbn in H; congruence|]. destruct (IH i H) as (a & E1 & E2). exists a. split; [exact E1|right; exact E2].
Qed.

Definition slot_right (s : nat * A) : Prop := exists x, nth_error inputs (fst s) = Some x /\ f x = Ok (snd s).

Lemma run_ok : forall schedule slots failed out,
  run_schedule f inputs schedule slots failed = Ok out -> Forall slot_right slots ->
  failed = None /\ Forall slot_right out /\
  (forall i, In i schedule -> exists x a, nth_error inputs i = Some x /\ f x = Ok a) /\
  (forall i, In i schedule \/ In i (map fst slots) -> In i (map fst out)).
Proof.
  induction schedule as [|i rest IH]; intros slots failed out H F; cbn [run_schedule] in H.
  - destruct failed; [discriminate|]. injection H as <-. split; [reflexivity|]. split; [exact F|]. split; [intros i []|].
    intros i [[]|Hi]; exact Hi.
  - destruct (nth_error inputs i) as [x|] eqn:Ex; [|discriminate]. destruct (f x) as [a|e|] eqn:Ef; [| |discriminate].
    + destruct (IH _ _ _ H) as (H1 & H2 & H3 & H4); [constructor; [exists x; split; assumption|exact F]|].
      split; [exact H1|]. split; [exact H2|]. split.
      * intros j [<-|Hj]; [exists x, a; split; assumption|apply H3, Hj].
      * intros j [[<-|Hj]|Hj]; apply H4; [right; left; reflexivity|left; exact Hj|right; right; exact Hj].
    + destruct (IH _ _ _ H F) as (H1 & _). destruct failed; discriminate.
Qed.

Lemma run_err : forall schedule slots failed e,
  run_schedule f inputs schedule slots failed = Err e -> failed = Some e \/ exists x, In x inputs /\ f x = Err e.
Proof.
  induction schedule as [|i rest IH]; intros slots failed e H; cbn [run_schedule] in H.
  - destruct failed; [left; congruence|discriminate].
  - destruct (nth_error inputs i) as [x|] eqn:Ex; [|discriminate]. destruct (f x) as [a|e1|] eqn:Ef; [| |discriminate].
    + exact (IH _ _ _ H).
    + destruct (IH _ _ _ H) as [H1|H1]; [|right; exact H1]. destruct failed as [e0|]; [left; exact H1|].
      right. exists x. split; [eapply nth_error_In; exact Ex|]. congruence.
Qed.

Lemma run_panic : forall schedule slots failed,
  (forall i, In i schedule -> i < length inputs) ->
  run_schedule f inputs schedule slots failed = Panic -> exists x, In x inputs /\ f x = Panic.
Proof.
  induction schedule as [|i rest IH]; intros slots failed L H; cbn [run_schedule] in H.
  - destruct failed; discriminate.
  - destruct (nth_error inputs i) as [x|] eqn:Ex.
    2: { apply nth_error_None in Ex. specialize (L i (or_introl eq_refl)). lia. }
    assert (L' : forall j, In j rest -> j < length inputs) by (intros j Hj; apply L; right; exact Hj).
    destruct (f x) as [a|e1|] eqn:Ef; [exact (IH _ _ L' H)|exact (IH _ _ L' H)|].
    exists x. split; [eapply nth_error_In; exact Ex|exact Ef].
Qed.

Lemma run_total : forall schedule slots,
  (forall i, In i schedule -> exists x a, nth_error inputs i = Some x /\ f x = Ok a) ->
  exists out, run_schedule f inputs schedule slots None = Ok out.
Proof.
  induction schedule as [|i rest IH]; intros slots H; cbn [run_schedule]; [eauto|].
  destruct (H i (or_introl eq_refl)) as (x & a & -> & ->). apply IH. intros j Hj. apply H. right. exact Hj.
Qed.

Lemma collect_slots slots : forall k (todo : list I) n,
  (forall i, i < length todo -> nth_error todo i = nth_error inputs (k + i)) -> n = length todo ->
  Forall slot_right slots -> (forall i, i < length todo -> In (k + i) (map fst slots)) ->
  exists out, map_res (fun i => of_option (slot i slots)) (seq k n) = @Ok E _ out /\ Forall2 (fun x a => f x = Ok a) todo out.
Proof.
  intros k todo. revert k. induction todo as [|x todo IH]; intros k n Ht -> F D; cbn [length seq map_res].
  - exists []. split; [reflexivity|constructor].
  - destruct (slot_in slots k) as (a & Ea & Ia).
    { specialize (D 0 ltac:(cbn; lia)). rewrite Nat.add_0_r in D. exact D. }
    rewrite Ea. cbn [of_option bind].
    destruct (IH (S k) (length todo)) as (out & Eo & Fo); [|reflexivity|exact F| |].
    + intros i Hi. specialize (Ht (S i) ltac:(cbn; lia)). cbn in Ht. rewrite Ht. f_equal. lia.
    + intros i Hi. specialize (D (S i) ltac:(cbn; lia)). replace (S k + i) with (k + S i) by lia. exact D.
    + rewrite Eo. cbn [bind]. exists (a :: out). split; [reflexivity|]. constructor; [|exact Fo].
      rewrite Forall_forall in F. destruct (F _ Ia) as (y & Ey & Fy). cbn [fst snd] in *.
      specialize (Ht 0 ltac:(cbn; lia)). rewrite Nat.add_0_r in Ht. cbn in Ht. congruence.
Qed.

Lemma par_collect_ok schedule outs : valid_schedule f inputs schedule ->
  (par_collect f inputs schedule = Ok outs <-> Forall2 (fun x a => f x = Ok a) inputs outs).
Proof.
  intros (_ & L & V). split.
  - intros H. unfold par_collect in H. apply bind_ok in H. destruct H as (slots & H1 & H2).
    destruct (run_ok _ _ _ _ H1) as (_ & F & K & D); [constructor|].
    destruct V as [V|(i & x & Hi & Hx & Hf)].
    2: { destruct (K i Hi) as (y & a & Ey & Ea). rewrite Hx in Ey. injection Ey as <-. exfalso. exact (Hf a Ea). }
    destruct (collect_slots slots 0 inputs (length inputs)) as (out & Eo & Fo); [reflexivity|reflexivity|exact F| |].
    + intros i Hi. apply D. left. apply V. exact Hi.
    + rewrite H2 in Eo. injection Eo as ->. exact Fo.
  - intros H.
    assert (K : forall i, i < length inputs -> exists x a, nth_error inputs i = Some x /\ f x = Ok a).
    { clear -H. induction H as [|x a l l' H _ IH]; intros i Hi; cbn in Hi; [lia|]. destruct i as [|i]; [exists x, a; auto|].
      cbn. apply IH. lia. }
    destruct (run_total schedule []) as (slots & E1); [intros i Hi; apply K, L, Hi|].
    unfold par_collect. rewrite E1. cbn [bind].
    destruct (run_ok _ _ _ _ E1) as (_ & F & K2 & D); [constructor|].
    destruct V as [V|(i & x & Hi & Hx & Hf)].
    2: { destruct (K2 i Hi) as (y & a & Ey & Ea). rewrite Hx in Ey. injection Ey as <-. exfalso. exact (Hf a Ea). }
    destruct (collect_slots slots 0 inputs (length inputs)) as (out & Eo & Fo); [reflexivity|reflexivity|exact F| |].
    + intros i Hi. apply D. left. apply V. exact Hi.
    + rewrite Eo. f_equal. clear -H Fo. revert out Fo. induction H as [|x a l l' H _ IH]; intros out Fo; inversion Fo; subst; [reflexivity|].
      f_equal; [congruence|apply IH; assumption].
Qed.

Lemma par_collect_err schedule e : valid_schedule f inputs schedule ->
  par_collect f inputs schedule = Err e -> exists x, In x inputs /\ f x = Err e.
Proof.
  intros (_ & L & V) H. unfold par_collect in H.
  destruct (run_schedule f inputs schedule [] None) as [slots|e'|] eqn:R; cbn [bind] in H; [|injection H as ->|discriminate].
  - exfalso. revert H. generalize (seq 0 (length inputs)). intros l. induction l as [|i l IH]; cbn [map_res]; [discriminate|].
    destruct (slot i slots); cbn [of_option bind]; [|discriminate]. destruct (map_res _ l) eqn:Q; cbn [bind]; [discriminate| |discriminate].
    intros H. apply IH. congruence.
  - destruct (run_err _ _ _ _ R) as [X|X]; [discriminate|exact X].
Qed.

Lemma par_collect_panic schedule : valid_schedule f inputs schedule ->
  par_collect f inputs schedule = Panic -> exists x, In x inputs /\ f x = Panic.
Proof.
  intros V H. pose proof V as (_ & L & W). unfold par_collect in H.
  destruct (run_schedule f inputs schedule [] None) as [slots|e'|] eqn:R; cbn [bind] in H; [|discriminate|exact (run_panic _ _ _ L R)].
  exfalso. destruct (run_ok _ _ _ _ R) as (_ & F & K & D); [constructor|].
  destruct W as [W|(i & x & Hi & Hx & Hf)].
  2: { destruct (K i Hi) as (y & a & Ey & Ea). rewrite Hx in Ey. injection Ey as <-. exact (Hf a Ea). }
  destruct (collect_slots slots 0 inputs (length inputs)) as (out & Eo & Fo); [reflexivity|reflexivity|exact F| |].
  - intros i Hi. apply D. left. apply W. exact Hi.
  - congruence.
Qed.
End Schedule.

(** ** Padding twice *)
Lemma shift_ranges_add a b r : shift_ranges b (shift_ranges a r) = shift_ranges (b + a) r.
Proof.
  unfold shift_ranges. rewrite map_map. apply map_ext. intros [s [x y]]. cbn [fst snd].
  rewrite <- !Nat.add_assoc, (Nat.add_comm a b). reflexivity.
Qed.

Lemma repeat_add {A} (x : A) a b : repeat x a ++ repeat x b = repeat x (a + b).
Proof. symmetry. apply repeat_app. Qed.

Lemma pad_one_ids_len n pid pty ptk d e : length (ids (pad_one n pid pty ptk d e)) = Nat.max n (length (ids e)).
Proof.
  unfold pad_one. destruct (Nat.leb_spec n (length (ids e))); [lia|]. destruct d; cbn [ids]; rewrite app_length, repeat_length; lia.
Qed.

Lemma pad_one_twice n1 n2 pid pty ptk d e o : n1 <= n2 ->
  pad_one n2 pid pty ptk d (set_overflowing (pad_one n1 pid pty ptk d e) o) = pad_one n2 pid pty ptk d (set_overflowing e o).
Proof.
  intros H. pose proof (pad_one_ids_len n1 pid pty ptk d e) as L.
  unfold pad_one at 1 3. cbn [ids set_overflowing]. rewrite L.
  unfold pad_one in *. cbn [ids set_overflowing] in *. destruct (Nat.leb_spec n1 (length (ids e))) as [H1|H1].
  - replace (Nat.max n1 (length (ids e))) with (length (ids e)) by lia. reflexivity.
  - replace (Nat.max n1 (length (ids e))) with n1 by lia. destruct (Nat.leb_spec n2 (length (ids e))) as [H2|H2]; [lia|].
    destruct (Nat.leb_spec n2 n1) as [H3|H3].
    + assert (n2 = n1) by lia. subst n2. destruct d; reflexivity.
    + assert (S : n2 - length (ids e) = (n2 - n1) + (n1 - length (ids e))) by lia.
      assert (S' : n2 - length (ids e) = (n1 - length (ids e)) + (n2 - n1)) by lia.
      destruct d; cbn [ids type_ids tokens words offsets special_tokens_mask attention_mask overflowing sequence_ranges set_overflowing].
      * rewrite !app_assoc, !repeat_add, shift_ranges_add, <- S. reflexivity.
      * rewrite <- !app_assoc, !repeat_add, <- S'. reflexivity.
Qed.

Lemma pad_one_overflowing n pid pty ptk d e : overflowing (pad_one n pid pty ptk d e) = overflowing e.
Proof. unfold pad_one. destruct (_ <=? _); [reflexivity|]. destruct d; reflexivity. Qed.

Lemma pad_twice n1 n2 pid pty ptk d e : n1 <= n2 -> pad n2 pid pty ptk d (pad n1 pid pty ptk d e) = pad n2 pid pty ptk d e.
Proof.
  intros H. induction e as [e IH] using enc_ind'. rewrite (pad_unfold n2 pid pty ptk d (pad n1 pid pty ptk d e)).
  rewrite (pad_unfold n1 pid pty ptk d e) at 1 2. rewrite pad_one_twice by exact H. rewrite (pad_unfold n2 pid pty ptk d e).
  f_equal. rewrite pad_one_overflowing. cbn [overflowing set_overflowing].
  replace (map (pad n2 pid pty ptk d) (map (pad n1 pid pty ptk d) (overflowing e))) with (map (pad n2 pid pty ptk d) (overflowing e)).
  - destruct e; reflexivity.
  - rewrite map_map. apply map_ext_in. intros o Ho. rewrite Forall_forall in IH. symmetry. apply IH, Ho.
Qed.

Lemma pad_ids_len n pid pty ptk d e : enc_len (pad n pid pty ptk d e) = Nat.max n (enc_len e).
Proof. rewrite pad_unfold. unfold enc_len. rewrite pad_one_ids_len. reflexivity. Qed.

(** The target of a batch does not change when its members were padded one by one. *)
Lemma pad_target_mono p l1 l2 : fold_right Nat.max 0 l1 <= fold_right Nat.max 0 l2 -> pad_target l1 p <= pad_target l2 p.
Proof.
  intros H. pose proof (pad_target_spec p l1) as (A1 & A2 & A3). pose proof (pad_target_spec p l2) as (B1 & B2 & B3). cbn zeta in *.
  apply A3; [|exact B2]. destruct (pp_strategy p); lia.
Qed.

Lemma fold_max_le l b : (forall x, In x l -> x <= b) -> fold_right Nat.max 0 l <= b.
Proof.
  induction l as [|x l IH]; cbn [fold_right]; intros H; [lia|].
  specialize (IH (fun y Hy => H y (or_intror Hy))). specialize (H x (or_introl eq_refl)). lia.
Qed.

Lemma pad_target_again p lens :
  pad_target (map (fun n => Nat.max (pad_target [n] p) n) lens) p = pad_target lens p.
Proof.
  set (lens' := map _ lens).
  pose proof (pad_target_spec p lens) as (A1 & A2 & A3). pose proof (pad_target_spec p lens') as (B1 & B2 & B3). cbn zeta in *.
  apply Nat.le_antisymm.
  - apply B3; [|exact A2]. destruct (pp_strategy p) eqn:Es; [|exact A1].
    apply fold_max_le. intros x Hx. unfold lens' in Hx. apply in_map_iff in Hx. destruct Hx as (n & <- & Hn).
    pose proof (max_list_ge _ _ Hn) as G. apply Nat.max_lub; [|lia].
    apply pad_target_mono. cbn [fold_right]. lia.
  - apply pad_target_mono. apply fold_max_le. intros x Hx. etransitivity; [apply Nat.le_max_r|]. apply max_list_ge. unfold lens'.
    apply in_map_iff. exists x. split; [reflexivity|exact Hx].
Qed.

Lemma pad_encodings_map l p :
  pad_encodings l p = map (pad (pad_target (map enc_len l) p) (pp_id p) (pp_type_id p) (pp_token p) (pp_direction p)) l.
Proof. destruct l; reflexivity. Qed.

Lemma pad_batch_again p es :
  pad_encodings (map (fun e => pad (pad_target [enc_len e] p) (pp_id p) (pp_type_id p) (pp_token p) (pp_direction p) e) es) p =
  pad_encodings es p.
Proof.
  rewrite !pad_encodings_map, !map_map.
  rewrite (map_ext _ (fun e => Nat.max (pad_target [enc_len e] p) (enc_len e))) by (intros; apply pad_ids_len).
  rewrite <- (map_map enc_len (fun n => Nat.max (pad_target [n] p) n)), pad_target_again.
  apply map_ext_in. intros e He. apply pad_twice. apply pad_target_mono. cbn [fold_right].
  pose proof (max_list_ge (map enc_len es) (enc_len e) (in_map _ _ _ He)). lia.
Qed.

(** ** Encoding then padding *)
Lemma encode_pad t ot input add :
  encode t ot input add = let! x := encode (with_padding t None) ot input add in pad_step t x.
Proof.
  assert (Q : forall e pair, post_process t e pair add = let! x := post_process (with_padding t None) e pair add in pad_step t x).
  { intros e pair. unfold post_process. change (truncate_step (with_padding t None) e pair add) with (truncate_step t e pair add).
    destruct (truncate_step t e pair add) as [[e' pair']| |]; cbn [bind fst snd]; [|reflexivity|reflexivity].
    change (process_step (with_padding t None) e' pair' add) with (process_step t e' pair' add).
    destruct (process_step t e' pair' add); reflexivity. }
  destruct input as [a|a b]; cbn [encode].
  - change (encode_single (with_padding t None) a 0 ot) with (encode_single t a 0 ot).
    destruct (encode_single t a 0 ot); cbn [other bind]; [apply Q|reflexivity|reflexivity].
  - change (encode_single (with_padding t None) a 0 ot) with (encode_single t a 0 ot).
    change (encode_single (with_padding t None) b 1 ot) with (encode_single t b 1 ot).
    destruct (encode_single t a 0 ot); cbn [other bind]; [|reflexivity|reflexivity].
    destruct (encode_single t b 1 ot); cbn [other bind]; [apply Q|reflexivity|reflexivity].
Qed.

Lemma pad_step_ok t x : exists y, pad_step t x = Ok y.
Proof. unfold pad_step. destruct (tz_padding t) as [p|]; [|eauto]. cbn [pad_encodings map]. eauto. Qed.
