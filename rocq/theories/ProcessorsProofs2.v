(** What each post-processor outputs, position by position. *)
From Verif Require Import Base AMap ListFacts EncodingModel EncodingSpec EncodingProofs EncodingProofs2
  EncodingProofs3 ByteLevelModel ProcessorsModel ProcessorsSpec ProcessorsProofs.

(** ** Encodings as lists of rows *)
Definition of_rows (l : list row) (o : list encoding) (m : list (nat * (nat * nat))) : encoding :=
  mkEnc (map r_id l) (map r_type l) (map r_token l) (map r_word l) (map r_off l)
        (map r_special l) (map r_attention l) o m.

Lemma rows_of_rows l o m : rows (of_rows l o m) = l.
Proof.
  unfold rows, of_rows; unfold_enc. induction l as [|[] l IH]; cbn [map combine]; [reflexivity|].
  rewrite IH. reflexivity.
Qed.

Lemma of_rows_same_lengths l o m : same_lengths (of_rows l o m).
Proof. unfold same_lengths, enc_len, of_rows; unfold_enc. rewrite !map_length. auto 10. Qed.

Lemma of_rows_len l o m : enc_len (of_rows l o m) = length l.
Proof. unfold enc_len, of_rows; unfold_enc. apply map_length. Qed.

Lemma of_rows_eq e : same_lengths e -> e = of_rows (rows e) (overflowing e) (sequence_ranges e).
Proof.
  destruct e as [i ty tk w of sm am o m]. unfold same_lengths, enc_len, of_rows, rows; unfold_enc.
  intros (H1 & H2 & H3 & H4 & H5 & H6).
  f_equal; clear o m; revert ty tk w of sm am H1 H2 H3 H4 H5 H6;
    induction i as [|i0 i IH]; intros [|] [|] [|] [|] [|] [|] H1 H2 H3 H4 H5 H6; cbn in *; try discriminate;
    try reflexivity; f_equal; apply IH; congruence.
Qed.

Lemma map_const_repeat {A B} (f : A -> B) b l : (forall x, In x l -> f x = b) -> map f l = repeat b (length l).
Proof.
  induction l as [|x l IH]; cbn; intros H; [reflexivity|]. rewrite (H x) by auto. f_equal. apply IH. auto.
Qed.

Lemma set_types_of_rows l o m ty :
  set_type_ids (of_rows l o m) (repeat ty (length l)) = of_rows (map (typed ty) l) o m.
Proof.
  unfold of_rows, set_type_ids; unfold_enc. rewrite !map_map. f_equal.
  rewrite (map_const_repeat _ ty); [reflexivity|]. reflexivity.
Qed.

Lemma rows_set_types e ty : same_lengths e ->
  rows (set_type_ids e (repeat ty (enc_len e))) = map (typed ty) (rows e).
Proof.
  intros H. rewrite (of_rows_eq e H) at 1. rewrite <- (rows_length e H), set_types_of_rows. apply rows_of_rows.
Qed.

Lemma same_lengths_set_types e ty : same_lengths e -> same_lengths (set_type_ids e (repeat ty (enc_len e))).
Proof. unfold same_lengths, enc_len; unfold_enc. rewrite repeat_length. tauto. Qed.

Lemma typed_id ty r : r_type r = ty -> typed ty r = r.
Proof. destruct r; cbn; intros ->. reflexivity. Qed.

Lemma map_typed_id ty l : Forall (fun r => r_type r = ty) l -> map (typed ty) l = l.
Proof.
  induction 1; cbn; [reflexivity|]. rewrite IHForall, typed_id by assumption. reflexivity.
Qed.

Definition unmarked (r : row) : Prop := r_special r = 0%N /\ r_attention r = 1%N.

Lemma surround_of_rows first last s ty l o m over :
  Forall unmarked l ->
  surround first last s (repeat ty (length l + 2)) (of_rows l o m) over =
  of_rows (added_row ty first :: map (typed ty) l ++ [added_row ty last]) over [(s, (1, S (length l)))].
Proof.
  intros H. unfold surround, of_rows; unfold_enc. cbn [map added_row r_id r_type r_token r_word r_off r_special r_attention].
  rewrite !map_app, !map_map, !app_length, !map_length. cbn [app map length typed r_id r_type r_token r_word r_off r_special r_attention added_row].
  f_equal.
  - rewrite (map_const_repeat (fun _ => ty) ty) by reflexivity.
    replace (length l + 2) with (S (length l + 1)) by lia. cbn [repeat]. rewrite repeat_app. reflexivity.
  - f_equal. f_equal. symmetry. apply map_const_repeat. intros x Hx. rewrite Forall_forall in H. apply H, Hx.
  - cbn [Nat.add repeat]. f_equal. rewrite repeat_app. f_equal. symmetry. apply map_const_repeat.
    intros x Hx. rewrite Forall_forall in H. apply H, Hx.
  - repeat f_equal. cbn. lia.
Qed.

Lemma bert_tail_of_rows sep l o m over :
  Forall unmarked l -> Forall (fun r => r_type r = 1%N) l ->
  bert_tail sep (of_rows l o m) over =
  of_rows (map (typed 1) l ++ [added_row 1 sep]) over [(1, (0, length l))].
Proof.
  intros H Ht. unfold bert_tail, of_rows; unfold_enc.
  rewrite !map_app, !map_map, !app_length, !map_length. cbn [app map length typed r_id r_type r_token r_word r_off r_special r_attention added_row].
  f_equal.
  - f_equal. apply map_ext_in. intros x Hx. rewrite Forall_forall in Ht. apply Ht, Hx.
  - f_equal. symmetry. apply map_const_repeat. intros x Hx. rewrite Forall_forall in H. apply H, Hx.
  - rewrite repeat_app. f_equal. symmetry. apply map_const_repeat.
    intros x Hx. rewrite Forall_forall in H. apply H, Hx.
  - repeat f_equal. lia.
Qed.

Lemma roberta_tail_of_rows sep l o m over :
  Forall unmarked l ->
  roberta_tail sep (of_rows l o m) over =
  of_rows (added_row 0 sep :: map (typed 0) l ++ [added_row 0 sep]) over [(1, (1, S (length l)))].
Proof.
  intros H. rewrite <- (surround_of_rows sep sep 1 0 l o m over H).
  unfold roberta_tail, surround, of_rows; unfold_enc. rewrite !map_length. reflexivity.
Qed.

(** ** What [of_rows] shows *)
Lemma pres_of_rows s pre mid post o :
  pres (of_rows (pre ++ mid ++ post) o [(s, (length pre, length pre + length mid))])
       (map (fun r => (None, r)) pre ++ map (fun r => (Some s, r)) mid ++ map (fun r => (None, r)) post)
       [s].
Proof.
  split; [apply of_rows_same_lengths|]. split; [|split].
  - rewrite rows_of_rows, !map_app, !map_map. cbn [snd]. rewrite !map_id. reflexivity.
  - reflexivity.
  - intros i s'. cbn [sequence_ranges of_rows]. rewrite !map_app, !map_map. cbn [fst].
    assert (N : forall (l : list row) j, nth_error (map (fun _ => @None nat) l) j <> Some (Some s')).
    { intros l j. rewrite nth_error_map. destruct (nth_error l j); cbn; discriminate. }
    split.
    + intros (r & [E|[]] & Hr). injection E as <- <-. cbn in Hr.
      rewrite nth_error_app2 by (rewrite map_length; lia). rewrite map_length.
      rewrite nth_error_app1 by (rewrite map_length; lia).
      rewrite nth_error_map. destruct (nth_error mid (i - length pre)) eqn:E; [reflexivity|].
      apply nth_error_None in E. lia.
    + intros E. exists (length pre, length pre + length mid). cbn.
      destruct (Nat.lt_ge_cases i (length pre)) as [Hlt|Hge].
      { rewrite nth_error_app1 in E by (rewrite map_length; lia). exfalso. eapply N, E. }
      rewrite nth_error_app2 in E by (rewrite map_length; lia). rewrite map_length in E.
      destruct (Nat.lt_ge_cases (i - length pre) (length mid)) as [Hlt|Hge2].
      2:{ rewrite nth_error_app2 in E by (rewrite map_length; lia). exfalso. eapply N, E. }
      rewrite nth_error_app1 in E by (rewrite map_length; lia). rewrite nth_error_map in E.
      destruct (nth_error mid (i - length pre)); [|discriminate]. cbn in E. injection E as ->.
      split; [auto|lia].
Qed.

Lemma pres_no_ranges l o :
  pres (of_rows l o []) (map (fun r => (None, r)) l) [].
Proof.
  split; [apply of_rows_same_lengths|]. split; [|split].
  - rewrite rows_of_rows, map_map. symmetry. apply map_id.
  - reflexivity.
  - intros i s'. cbn [sequence_ranges of_rows]. split; [intros (r & [] & _)|].
    rewrite map_map, nth_error_map. destruct (nth_error l i); cbn; discriminate.
Qed.

(** ** Preparation *)
(** [prepare] on a fresh encoding: same rows (the type id is already right), and
    every encoding knows its sequence. *)
Definition ready (s : nat) (e : encoding) : Prop :=
  exists l os, e = of_rows l os [(s, (0, length l))] /\ Forall unmarked l /\
    Forall (fun o => exists lo, o = of_rows lo [] [(s, (0, length lo))] /\
                                Forall unmarked lo /\ Forall (fun r => r_type r = N.of_nat s) lo) os.

Lemma set_sequence_id_of_rows s l o : set_sequence_id (of_rows l o []) s = of_rows l o [(s, (0, length l))].
Proof. unfold set_sequence_id. rewrite of_rows_len. reflexivity. Qed.

Lemma fresh_prepare s e : fresh s e ->
  prepare s e = of_rows (rows e) (map (fun o => of_rows (rows o) [] [(s, (0, length (rows o)))]) (overflowing e))
                  [(s, (0, length (rows e)))].
Proof.
  intros ((H1 & H2 & H3) & HO). unfold prepare.
  rewrite (of_rows_eq e H1) at 1 2 3 4. rewrite H2, set_sequence_id_of_rows.
  unfold set_overflowing at 1 2. cbn [ids type_ids tokens words offsets special_tokens_mask attention_mask sequence_ranges overflowing of_rows].
  change (mkEnc (map r_id (rows e)) (map r_type (rows e)) (map r_token (rows e)) (map r_word (rows e))
    (map r_off (rows e)) (map r_special (rows e)) (map r_attention (rows e))) with (of_rows (rows e)).
  rewrite of_rows_len, set_types_of_rows, map_typed_id.
  - f_equal. apply map_ext_in. intros o Ho. rewrite Forall_forall in HO. destruct (HO o Ho) as ((O1 & O2 & O3) & O4).
    rewrite (of_rows_eq o O1) at 1. rewrite O2, O4, set_sequence_id_of_rows. reflexivity.
  - eapply Forall_impl; [|exact H3]. cbn. tauto.
Qed.
