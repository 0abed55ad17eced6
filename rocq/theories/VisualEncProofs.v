(** The offsets that a tokenizer reports in characters are in the text, whatever is done
    after tokenisation (for C92). *)
From Coq Require Import String.
From Verif Require Import Base ListFacts StrBytes EncodingModel EncodingSpec NormModel NormSpec PreTokModel PreTokSpec PreTokProofs PreTokProofs2 ByteLevelModel ProcessorsModel TruncPadModel AddedModel
  TokenizerModel EndToEndSpec EndToEndProofs VisualModel VisualSpec VisualEncModel.

Definition within (n : nat) (o : offsets_t) : Prop := fst o <= snd o /\ (fst o < snd o -> snd o <= n).
Definition off_ok (n : nat) (e : encoding) : Prop := Forall (within n) (offsets e).

Lemma within_zero n : within n (0, 0).
Proof. unfold within. cbn. lia. Qed.
Lemma within_zeros n : forall k, Forall (within n) (repeat (0, 0) k).
Proof. induction k; constructor; [apply within_zero|assumption]. Qed.

(** ** After tokenisation *)
Lemma trim_within n is_ws aps i t o : within n o -> within n (trim_one is_ws aps i t o).
Proof.
  intros [H1 H2]. unfold trim_one. set (lead := count_while (blank is_ws) t). set (trail := count_while (blank is_ws) (rev t)).
  assert (L : forall o', fst o <= fst o' <= snd o' -> snd o' = snd o -> within n (if (0 <? trail) && (trail <=? snd o') then (fst o', Nat.max (snd o' - trail) (fst o')) else o')).
  { intros [a b] A B. cbn [fst snd] in *. destruct ((0 <? trail) && (trail <=? b)) eqn:E; unfold within; cbn [fst snd]; lia. }
  destruct (0 <? lead); apply L; cbn [fst snd]; lia.
Qed.
Lemma trim_loop_within n is_ws aps : forall toks i os, Forall (within n) os -> Forall (within n) (trim_loop is_ws aps i toks os).
Proof. induction toks as [|t toks IH]; intros i [|o os] F; cbn [trim_loop]; auto. inversion F; subst. constructor; [apply trim_within; assumption|apply IH; assumption]. Qed.
Lemma trim_all_within n is_ws aps e : off_ok n e -> off_ok n (trim_all is_ws aps e).
Proof. intros F. unfold off_ok, trim_all, process_offsets, set_overflowing, set_offsets. cbn [offsets]. apply trim_loop_within. exact F. Qed.
Lemma trims_within n is_ws aps (b : bool) es : Forall (off_ok n) es -> Forall (off_ok n) (if b then map (trim_all is_ws aps) es else es).
Proof. intros F. destruct b; [|exact F]. rewrite Forall_map. eapply Forall_impl; [|exact F]. intros e. apply trim_all_within. Qed.
Lemma wrapped_within n os : Forall (within n) os -> Forall (within n) ([(0, 0)] ++ os ++ [(0, 0)]).
Proof. intros F. constructor; [apply within_zero|]. apply Forall_app. split; [exact F|]. constructor; [apply within_zero|constructor]. Qed.
Lemma firsts_within n f g es : Forall (off_ok n) es -> (forall e, off_ok n e -> off_ok n (f e) /\ off_ok n (g e)) -> Forall (off_ok n) (map_first f g es).
Proof.
  intros F H. destruct F as [|e es P F]; cbn [map_first]; constructor; [apply H; exact P|]. rewrite Forall_map. eapply Forall_impl; [|exact F]. intros x Px. apply H. exact Px.
Qed.
Lemma mapi_within n (f : nat -> encoding -> encoding) es : Forall (off_ok n) es -> (forall i e, offsets (f i e) = offsets e) -> Forall (off_ok n) (mapi f es).
Proof.
  intros F H. unfold mapi. rewrite Forall_map. generalize 0 as k. induction F as [|e es P F IH]; intros k; cbn [length seq combine]; constructor; [|apply IH]. unfold off_ok. cbn [fst snd]. rewrite H. exact P.
Qed.
Lemma update_within n : forall es i e, Forall (off_ok n) es -> off_ok n e -> Forall (off_ok n) (update es i e).
Proof. induction es as [|x es IH]; intros i e F P; [exact F|]. inversion F; subst. destruct i; cbn [update]; constructor; auto. Qed.
Lemma template_within n m : forall tpl es add out, Forall (off_ok n) es -> apply_template m tpl es add = Ok out -> Forall (off_ok n) out.
Proof.
  induction tpl as [|[s ty|name ty] tpl IH]; intros es add out F H; cbn [apply_template] in H.
  - injection H as <-. constructor.
  - destruct (nth_error es (seq_index s)) as [e|] eqn:E; [|discriminate]. cbn [of_option bind] in H. apply bind_ok in H. destruct H as (out' & H & R). injection R as <-.
    assert (P : off_ok n (set_sequence_id (set_type_ids e (repeat ty (enc_len e))) (seq_index s))) by (rewrite Forall_forall in F; exact (F e (nth_error_In _ _ E))).
    constructor; [exact P|]. apply (IH _ _ _ (update_within n es _ _ F P) H).
  - destruct add; [|exact (IH _ _ _ F H)]. destruct (get_special name m) as [s|]; [|discriminate]. cbn [of_option bind] in H. apply bind_ok in H. destruct H as (out' & H & R). injection R as <-.
    constructor; [apply within_zeros|]. apply (IH _ _ _ F H).
Qed.
Lemma process_within n is_ws add : forall p es out, Forall (off_ok n) es -> process_encodings is_ws p es add = Ok out -> Forall (off_ok n) out.
Proof.
  fix IH 1. intros [sep cls|sep cls trim aps|trim aps|t|ps] es out F H.
  - clear IH. injection H as <-. unfold bert_process. destruct add; [|exact F]. apply firsts_within; [exact F|]. intros e P. split; unfold off_ok; cbn [bert_first bert_other bert_tail surround offsets]; [apply wrapped_within; exact P|].
    apply Forall_app. split; [exact P|]. constructor; [apply within_zero|constructor].
  - clear IH. injection H as <-. unfold roberta_process. pose proof (trims_within n is_ws aps trim es F) as F1. set (es1 := if trim then _ else es) in *.
    assert (F2 : Forall (off_ok n) (map (fun e => set_type_ids e (repeat 0%N (enc_len e))) es1)) by (rewrite Forall_map; exact F1).
    destruct add; [|exact F2]. apply firsts_within; [exact F2|]. intros e P. split; unfold off_ok; cbn [roberta_first roberta_other roberta_tail surround offsets]; apply wrapped_within; exact P.
  - clear IH. injection H as <-. unfold byte_level_process. apply mapi_within; [apply trims_within; exact F|reflexivity].
  - clear IH. cbn [process_encodings] in H. unfold template_process in H. destruct es as [|e1 [|e2 [|e3 es]]]; try discriminate; eapply template_within; eauto.
  - cbn [process_encodings] in H. revert es F H. induction ps as [|p ps IHp]; intros es F H; [injection H as <-; exact F|].
    apply bind_ok in H. destruct H as (es' & H1 & H2). apply (IHp es'); [|exact H2]. exact (IH p es es' F H1).
Qed.
Lemma merge_offsets : forall es a, offsets (fold_left (merge_with false) es a) = offsets a ++ flat_map offsets es.
Proof.
  induction es as [|e es IH]; intros a; cbn [fold_left flat_map]; [rewrite app_nil_r; reflexivity|]. rewrite IH.
  assert (E : offsets (merge_with false a e) = offsets a ++ offsets e).
  { destruct a as [a1 a2 a3 a4 a5 a6 a7 a8 a9], e as [b1 b2 b3 b4 b5 b6 b7 b8 b9]. cbn [merge_with merge_main offsets starting_offset]. f_equal. unfold shift_offsets. transitivity (map (fun o : offsets_t => o) b5); [|apply map_id]. apply map_ext. intros [x y]. cbn. rewrite !Nat.add_0_r. reflexivity. }
  rewrite E, <- app_assoc. reflexivity.
Qed.
Lemma cut_within n e r e' : off_ok n e -> EncodingModel.cut e r = Ok e' -> off_ok n e'.
Proof.
  destruct r as [a b]. unfold EncodingModel.cut. intros F H. repeat (apply bind_ok in H; destruct H as (? & ? & H)). injection H as <-. unfold off_ok. cbn [offsets].
  match goal with K : slice (offsets e) a b = Ok ?x |- Forall _ ?x => unfold slice in K; destruct ((a <=? b) && (b <=? length (offsets e))); [|discriminate]; injection K as <- end.
  unfold off_ok in F. rewrite Forall_forall in F |- *. intros o I. apply F. rewrite <- (firstn_skipn a (offsets e)). apply in_or_app. right. rewrite <- (firstn_skipn (b - a) (skipn a (offsets e))). apply in_or_app. left. exact I.
Qed.
Lemma truncate_within n e mx st d e' : off_ok n e -> truncate e mx st d = Ok e' -> off_ok n e'.
Proof.
  unfold truncate. intros F H. destruct (length (ids e) <=? mx); [injection H as <-; exact F|]. destruct (mx =? 0); [injection H as <-; constructor|]. destruct (negb (st <? mx)); [discriminate|].
  destruct (parts_ranges (length (ids e)) mx st d) as [|r rs]; [discriminate|]. apply bind_ok in H. destruct H as (m & H1 & H). apply bind_ok in H. destruct H as (rest & _ & H). injection H as <-.
  exact (cut_within n e r m F H1).
Qed.
Lemma lift_truncate n e mx st d e' : off_ok n e -> (lift_res (truncate e mx st d) : res trunc_error encoding) = Ok e' -> off_ok n e'.
Proof. intros F H. destruct (truncate e mx st d) as [x| |] eqn:E; try discriminate. injection H as <-. exact (truncate_within n e mx st d x F E). Qed.
Lemma truncations_within n e p e' o' : off_ok n e -> truncate_encodings e None p = Ok (e', o') -> off_ok n e' /\ o' = None.
Proof.
  unfold truncate_encodings. intros F H. destruct (tp_max_length p =? 0).
  - apply bind_ok in H. destruct H as (x & H1 & H). injection H as <- <-. split; [exact (lift_truncate _ _ _ _ _ _ F H1)|reflexivity].
  - destruct (enc_len e + opt_len None <=? tp_max_length p); [injection H as <- <-; auto|]. destruct (tp_strategy p); [| |discriminate].
    + apply bind_ok in H. destruct H as (x & H1 & H). injection H as <- <-. split; [exact (lift_truncate _ _ _ _ _ _ F H1)|reflexivity].
    + match type of H with (if ?c then _ else _) = _ => destruct c; [|discriminate] end. apply bind_ok in H. destruct H as (x & H1 & H). injection H as <- <-. split; [exact (lift_truncate _ _ _ _ _ _ F H1)|reflexivity].
Qed.
Lemma post_within n t e add out : off_ok n e -> post_process t e None add = Ok out -> off_ok n out.
Proof.
  intros F H. unfold post_process in H. apply bind_ok in H. destruct H as ([e' o'] & H1 & H). apply bind_ok in H. destruct H as (x & H2 & H3). cbn [fst snd] in *.
  assert (A : off_ok n e' /\ o' = None).
  { unfold truncate_step in H1. destruct (tz_truncation t) as [p|]; [|injection H1 as <- <-; auto].
    assert (G : forall p', trunc (truncate_encodings e None p') = Ok (e', o') -> off_ok n e' /\ o' = None).
    { intros p' G. destruct (truncate_encodings e None p') as [[a b]| |] eqn:E; try discriminate. injection G as <- <-. exact (truncations_within n e p' a b F E). }
    destruct (add && _); [|exact (G _ H1)]. destruct (tp_max_length p <? _); [discriminate|]. exact (G _ H1). }
  destruct A as [A ->].
  assert (B : off_ok n x).
  { unfold process_step in H2. destruct (tz_post t) as [p|].
    - unfold process in H2. destruct (process_encodings (tz_blank t) p (mapi prepare [e']) add) as [out'| |] eqn:E; try discriminate. cbn [bind other] in H2. injection H2 as <-.
      unfold off_ok, merge. rewrite merge_offsets. cbn [offsets empty_enc app]. 
      assert (P : Forall (off_ok n) out') by (refine (process_within n _ add p _ _ _ E); apply mapi_within; [repeat constructor; exact A|reflexivity]).
      clear -P. induction P as [|y l Py _ IH]; cbn [flat_map]; [constructor|]. apply Forall_app. split; [exact Py|exact IH].
    - cbn [default_process] in H2. injection H2 as <-. exact A. }
  unfold pad_step in H3. destruct (tz_padding t) as [p|]; [|injection H3 as <-; exact B]. cbn [pad_encodings map] in H3. injection H3 as <-.
  destruct x as [a1 a2 a3 a4 a5 a6 a7 a8 a9]. unfold off_ok. cbn [pad set_overflowing]. unfold pad_one. match goal with |- context [if ?c then _ else _] => destruct c; [exact B|] end. destruct (pp_direction p); cbn [offsets]; apply Forall_app; split; try exact B; apply within_zeros.
Qed.

(** ** Tokenisation *)
Lemma chars_within s o c : fst o <= snd o -> is_boundary s (fst o) = true -> is_boundary s (snd o) = true -> convert_chars s o = Ok c ->
  within (length s) (match c with Some o' => o' | None => o end).
Proof.
  destruct o as [a b]. cbn [fst snd]. intros L B1 B2 H. destruct (char_pos_boundary _ _ B1) as (i & P1). destruct (char_pos_boundary _ _ B2) as (j & P2).
  destruct (Nat.eq_dec a (blen s)) as [->|N].
  - rewrite convert_chars_end in H. injection H as <-. pose proof (is_boundary_le _ _ B2). split; cbn [fst snd]; lia.
  - pose proof (is_boundary_le _ _ B1). destruct (convert_chars_reported s a b i j P1 P2 L ltac:(left; lia)) as (c' & H' & E). rewrite H in H'. injection H' as <-. rewrite E.
    destruct (char_pos_pair s a b i j P1 P2 L) as (p & m & q & -> & _ & _ & -> & ->). split; cbn [fst snd]; [lia|]. intros _. rewrite !app_length. lia.
Qed.
Lemma rows_within orig wd ty : forall l i rs, pre_ok orig l -> encoding_rows orig true wd ty i l = Ok rs -> Forall (fun r : enc_row => let '(_, _, o, _, _) := r in within (length orig) o) rs.
Proof.
  induction l as [|sp l IH]; intros i rs [F T] H; cbn [encoding_rows] in H; [injection H as <-; constructor|].
  inversion F as [|? ? (A & L & _) F']; subst. destruct (PreTokModel.sp_tokens sp) as [ts|] eqn:ET; [|discriminate]. cbn [of_option bind] in H.
  apply bind_ok in H. destruct H as (r1 & H1 & H). apply bind_ok in H. destruct H as (r2 & H2 & H). injection H as <-. apply Forall_app. split.
  - assert (TF : Forall (token_fits (sp_norm sp)) ts).
    { apply Forall_forall. intros t I. apply (T 0 (sp_norm sp) t). cbn [all_tokens]. rewrite ET. apply in_or_app. left. apply in_map_iff. eauto. }
    apply map_res_ok in H1. clear -A L TF H1. induction H1 as [|t r ts rs E _ IH]; [constructor|]. inversion TF as [|? ? T1 T2]; subst. constructor; [|apply IH; exact T2].
    destruct (token_offsets_bytes orig (sp_norm sp) t A L T1) as (o & _ & G & EC). unfold token_row in E. rewrite EC in E. destruct (convert_chars orig o) as [c| |] eqn:EV; try discriminate. cbn [bind] in E. injection E as <-.
    destruct G as (_ & _ & G1 & _ & G2 & G3). exact (chars_within orig o c G1 G2 G3 EV).
  - apply (IH (i + 1) r2); [|exact H2]. split; [exact F'|]. apply (fits_index l (0 + 1) 0). intros k ns t I. apply (T k ns t). cbn [all_tokens]. apply in_or_app. right. exact I.
Qed.
Lemma text_within t s e : sound t -> encode_single t (Raw s) 0 OChar = Ok e -> off_ok (length s) e.
Proof.
  intros SO H. apply encode_part_steps in H. destruct H as (p1 & p2 & p3 & H1 & H2 & H3 & H4). destruct (pieces_ready t s _ p1 p2 p3 SO H1 H2 H3) as [O3 R].
  unfold into_encoding in H4. destruct (is_nil (pt_splits p3)); [injection H4 as <-; constructor|]. destruct (negb (forallb has_tokens (pt_splits p3))) eqn:EH; [discriminate|].
  apply bind_ok in H4. destruct H4 as (rs & H4 & E). injection E as <-. rewrite O3 in H4.
  assert (P : pre_ok s (pt_splits p3)).
  { destruct R as [F T]. split; [|exact T]. rewrite <- O3. eapply Forall_impl; [|exact F]. cbn. tauto. }
  pose proof (rows_within _ _ _ _ _ _ P H4) as W. unfold off_ok, from_rows. cbn [offsets]. rewrite Forall_map. eapply Forall_impl; [|exact W]. intros [[[[? ?] ?] ?] ?] X. exact X.
Qed.

Lemma encoding_fits t s add e : sound t -> encode t OChar (Single (Raw s)) add = Ok e -> tokens_fit s (encoding_tokens e).
Proof.
  intros SO H. cbn [encode] in H. destruct (encode_single t (Raw s) 0 OChar) as [e0| |] eqn:E; try discriminate. cbn [other bind] in H.
  pose proof (post_within _ t e0 add e (text_within t s e0 SO E) H) as W. unfold tokens_fit, encoding_tokens. rewrite Forall_map. apply Forall_forall. intros [i tok] _ a b. cbn [snd fst].
  unfold token_to_chars. destruct (token_to_sequence e i) as [q|]; [|discriminate]. destruct (nth_error (offsets e) i) as [o|] eqn:EO; [|discriminate]. cbn [option_map snd]. intros X. assert (o = (a, b)) by congruence. subst o.
  unfold off_ok in W. rewrite Forall_forall in W. destruct (W (a, b) (nth_error_In _ _ EO)) as [_ W2]. exact W2.
Qed.
