(** BERT, RoBERTa, ByteLevel and template layouts. *)
From Verif Require Import Base AMap ListFacts EncodingModel EncodingSpec EncodingProofs EncodingProofs2
  EncodingProofs3 ByteLevelModel ProcessorsModel ProcessorsSpec ProcessorsProofs ProcessorsProofs2.

(** ** Encodings transformed row-wise, together with their overflowing ones *)
Definition dressed (e : encoding) (w : list row -> list row) (k : list row -> list (nat * (nat * nat))) : encoding :=
  of_rows (w (rows e)) (map (fun o => of_rows (w (rows o)) [] (k (rows o))) (overflowing e)) (k (rows e)).

Lemma dressed_node e w k x : node (dressed e w k) x ->
  exists a, node e a /\ flat x = of_rows (w (rows a)) [] (k (rows a)).
Proof.
  intros H. inversion H as [|o y Hin Hn]; subst.
  - exists e. split; [constructor|reflexivity].
  - cbn [overflowing dressed of_rows] in Hin. apply in_map_iff in Hin. destruct Hin as (a & <- & Ha).
    apply (node_flat (of_rows (w (rows a)) [] (k (rows a)))) in Hn. subst x.
    exists a. split; [eapply node_over; [exact Ha|constructor]|reflexivity].
Qed.

(** The encoding itself or a direct overflowing one. *)
Definition top (e x : encoding) : Prop := x = e \/ In x (overflowing e).

Lemma dressed_top e w k a : top e a -> exists x, top (dressed e w k) x /\ flat x = of_rows (w (rows a)) [] (k (rows a)).
Proof.
  intros [->|H].
  - exists (dressed e w k). split; [left|]; reflexivity.
  - exists (of_rows (w (rows a)) [] (k (rows a))). split; [|reflexivity]. right. cbn. apply in_map_iff. eauto.
Qed.

Lemma top_merge_with g a b a' b' : top a a' -> top b b' -> top (merge_with g a b) (merge_with g a' b').
Proof.
  intros [->|Ha] [->|Hb]; [left; reflexivity|right..]; rewrite overflowing_merge_with; apply in_or_app.
  - right. apply in_map. exact Hb.
  - left. apply in_flat_map. exists a'. split; [exact Ha|left; reflexivity].
  - left. apply in_flat_map. exists a'. split; [exact Ha|right]. apply in_map. exact Hb.
Qed.

Lemma top_merge g l xs : Forall2 top l xs -> top (merge g l) (merge g xs).
Proof.
  unfold merge. intros F. assert (T : top empty_enc empty_enc) by (left; reflexivity). revert T.
  generalize empty_enc at 1 3. generalize empty_enc.
  induction F as [|x y l xs H F IH]; intros u v T; cbn [fold_left]; [exact T|].
  apply IH. apply top_merge_with; assumption.
Qed.

(** A processor that dresses each input: every node of the result shows the
    concatenation for some nodes of the inputs, and every combination occurs. *)
Section dress.
  Context (w1 w2 : list row -> list row) (k1 k2 : list row -> list (nat * (nat * nat)))
          (c1 c2 : list row -> list (option nat * row)).
  Context (P1 P2 : list row -> Prop).
  Hypothesis H1 : forall l, P1 l -> pres (of_rows (w1 l) [] (k1 l)) (c1 l) [0].
  Hypothesis H2 : forall l, P2 l -> pres (of_rows (w2 l) [] (k2 l)) (c2 l) [1].

  Lemma dress_single e : (forall x, node e x -> P1 (rows x)) ->
    forall x, node (merge false [dressed e w1 k1]) x ->
    exists a, node e a /\ shows x (c1 (rows a)).
  Proof.
    intros HP x Hx. destruct (merge_node _ _ _ Hx) as (xs & F & E).
    inversion F as [|? y ? ? Hy F']; subst. inversion F'; subst.
    destruct (dressed_node _ _ _ _ Hy) as (a & Ha & Ea). exists a. split; [exact Ha|].
    apply (pres_shows _ _ [0]); [|discriminate]. apply (proj1 (pres_flat x _ _)). rewrite E. cbn [map]. rewrite Ea.
    replace (c1 (rows a)) with (concat (map fst [(c1 (rows a), [0])])) by (cbn; apply app_nil_r).
    apply (pres_merge_list [_] [(c1 (rows a), [0])]).
    - constructor; [apply H1, HP, Ha|constructor].
    - cbn. repeat constructor; cbn; lia.
  Qed.

  Lemma dress_single_main e : (forall x, node e x -> P1 (rows x)) ->
    shows (merge false [dressed e w1 k1]) (c1 (rows e)).
  Proof.
    intros HP. apply (pres_shows _ _ [0]); [|discriminate].
    replace (c1 (rows e)) with (concat (map fst [(c1 (rows e), [0])])) by (cbn; apply app_nil_r).
    apply (pres_merge_list [_] [(c1 (rows e), [0])]).
    - constructor; [|constructor]. apply (proj1 (pres_flat (dressed e w1 k1) _ _)). apply H1, HP. constructor.
    - cbn. repeat constructor; cbn; lia.
  Qed.

  Lemma dress_single_top e a : (forall x, node e x -> P1 (rows x)) -> top e a ->
    exists x, top (merge false [dressed e w1 k1]) x /\ shows x (c1 (rows a)).
  Proof.
    intros HP Ta. destruct (dressed_top e w1 k1 a Ta) as (y & Ty & Ey).
    exists (merge false [y]). split; [apply top_merge; constructor; [exact Ty|constructor]|].
    apply (pres_shows _ _ [0]); [|discriminate].
    replace (c1 (rows a)) with (concat (map fst [(c1 (rows a), [0])])) by (cbn; apply app_nil_r).
    apply (pres_merge_list [_] [(c1 (rows a), [0])]).
    - constructor; [|constructor]. apply (proj1 (pres_flat y _ _)). rewrite Ey. apply H1, HP.
      destruct Ta as [->|Ta]; [constructor|eapply node_over; [exact Ta|constructor]].
    - cbn. repeat constructor; cbn; lia.
  Qed.

  Lemma dress_pair e e2 : (forall x, node e x -> P1 (rows x)) -> (forall x, node e2 x -> P2 (rows x)) ->
    forall x, node (merge false [dressed e w1 k1; dressed e2 w2 k2]) x ->
    exists a b, node e a /\ node e2 b /\ shows x (c1 (rows a) ++ c2 (rows b)).
  Proof.
    intros HP HP2 x Hx. destruct (merge_node _ _ _ Hx) as (xs & F & E).
    inversion F as [|? y ? ? Hy F']; subst. inversion F' as [|? y2 ? ? Hy2 F'']; subst. inversion F''; subst.
    destruct (dressed_node _ _ _ _ Hy) as (a & Ha & Ea). destruct (dressed_node _ _ _ _ Hy2) as (b & Hb & Eb).
    exists a, b. split; [exact Ha|]. split; [exact Hb|].
    apply (pres_shows _ _ [0; 1]); [|discriminate]. apply (proj1 (pres_flat x _ _)). rewrite E. cbn [map]. rewrite Ea, Eb.
    replace (c1 (rows a) ++ c2 (rows b)) with (concat (map fst [(c1 (rows a), [0]); (c2 (rows b), [1])]))
      by (cbn; rewrite app_nil_r; reflexivity).
    apply (pres_merge_list [_; _] [(c1 (rows a), [0]); (c2 (rows b), [1])]).
    - constructor; [apply H1, HP, Ha|constructor; [apply H2, HP2, Hb|constructor]].
    - cbn. repeat constructor; cbn; lia.
  Qed.

  Lemma dress_pair_top e e2 a b : (forall x, node e x -> P1 (rows x)) -> (forall x, node e2 x -> P2 (rows x)) ->
    top e a -> top e2 b ->
    exists x, top (merge false [dressed e w1 k1; dressed e2 w2 k2]) x /\ shows x (c1 (rows a) ++ c2 (rows b)).
  Proof.
    intros HP HP2 Ta Tb. destruct (dressed_top e w1 k1 a Ta) as (y & Ty & Ey).
    destruct (dressed_top e2 w2 k2 b Tb) as (z & Tz & Ez).
    exists (merge false [y; z]). split; [apply top_merge; constructor; [exact Ty|constructor; [exact Tz|constructor]]|].
    apply (pres_shows _ _ [0; 1]); [|discriminate].
    replace (c1 (rows a) ++ c2 (rows b)) with (concat (map fst [(c1 (rows a), [0]); (c2 (rows b), [1])]))
      by (cbn; rewrite app_nil_r; reflexivity).
    apply (pres_merge_list [_; _] [(c1 (rows a), [0]); (c2 (rows b), [1])]).
    - constructor; [|constructor; [|constructor]].
      + apply (proj1 (pres_flat y _ _)). rewrite Ey. apply H1, HP.
        destruct Ta as [->|Ta]; [constructor|eapply node_over; [exact Ta|constructor]].
      + apply (proj1 (pres_flat z _ _)). rewrite Ez. apply H2, HP2.
        destruct Tb as [->|Tb]; [constructor|eapply node_over; [exact Tb|constructor]].
    - cbn. repeat constructor; cbn; lia.
  Qed.

  Lemma dress_pair_main e e2 : (forall x, node e x -> P1 (rows x)) -> (forall x, node e2 x -> P2 (rows x)) ->
    shows (merge false [dressed e w1 k1; dressed e2 w2 k2]) (c1 (rows e) ++ c2 (rows e2)).
  Proof.
    intros HP HP2. apply (pres_shows _ _ [0; 1]); [|discriminate].
    replace (c1 (rows e) ++ c2 (rows e2)) with (concat (map fst [(c1 (rows e), [0]); (c2 (rows e2), [1])]))
      by (cbn; rewrite app_nil_r; reflexivity).
    apply (pres_merge_list [_; _] [(c1 (rows e), [0]); (c2 (rows e2), [1])]).
    - constructor; [|constructor; [|constructor]].
      + apply (proj1 (pres_flat (dressed e w1 k1) _ _)). apply H1, HP. constructor.
      + apply (proj1 (pres_flat (dressed e2 w2 k2) _ _)). apply H2, HP2. constructor.
    - cbn. repeat constructor; cbn; lia.
  Qed.
End dress.

(** ** Fresh inputs *)
Definition good (s : nat) (l : list row) : Prop :=
  Forall (fun r => r_type r = N.of_nat s /\ r_special r = 0%N /\ r_attention r = 1%N) l.

Lemma fresh_node s e x : fresh s e -> node e x -> good s (rows x).
Proof.
  intros (P & F) H. inversion H as [|o y Hin Hn]; subst; [apply P|].
  rewrite Forall_forall in F. destruct (F o Hin) as (Po & Eo).
  inversion Hn as [|o' y' Hin' _]; subst; [apply Po|]. rewrite Eo in Hin'. contradiction.
Qed.

Lemma good_unmarked s l : good s l -> Forall unmarked l.
Proof. apply Forall_impl. unfold unmarked. tauto. Qed.

Lemma good_typed s l : good s l -> Forall (fun r => r_type r = N.of_nat s) l.
Proof. apply Forall_impl. tauto. Qed.

Lemma good_types s l : good s l -> map r_type l = repeat (N.of_nat s) (length l).
Proof. intros H. apply map_const_repeat. intros x Hx. apply good_typed in H. rewrite Forall_forall in H. apply H, Hx. Qed.

(** ** BERT *)
Definition wrap (ty : N) (a b : list N * N) (l : list row) : list row :=
  added_row ty a :: map (typed ty) l ++ [added_row ty b].
Definition tail (ty : N) (b : list N * N) (l : list row) : list row :=
  map (typed ty) l ++ [added_row ty b].

Lemma bert_first_fresh sep cls e : fresh 0 e ->
  bert_first sep cls (prepare 0 e) =
  dressed e (wrap 0 cls sep) (fun l => [(0, (1, S (length l)))]).
Proof.
  intros Fr. rewrite (fresh_prepare 0 e Fr). unfold bert_first, dressed.
  assert (Hl : forall l o m over, good 0 l ->
     surround cls sep 0 ([0%N] ++ type_ids (of_rows l o m) ++ [0%N]) (of_rows l o m) over =
     of_rows (wrap 0 cls sep l) over [(0, (1, S (length l)))]).
  { intros l o m over G. unfold wrap. rewrite <- (surround_of_rows cls sep 0 0 l o m over (good_unmarked _ _ G)).
    f_equal. cbn [type_ids of_rows]. rewrite (good_types _ _ G). cbn [N.of_nat app].
    replace (length l + 2) with (S (length l + 1)) by lia. cbn [repeat]. rewrite repeat_app. reflexivity. }
  rewrite Hl by (eapply fresh_node; [exact Fr|constructor]).
  f_equal. cbn [overflowing of_rows]. rewrite map_map. apply map_ext_in. intros o Ho.
  apply Hl. eapply fresh_node; [exact Fr|]. eapply node_over; [exact Ho|constructor].
Qed.

Lemma bert_other_fresh sep e : fresh 1 e ->
  bert_other sep (prepare 1 e) = dressed e (tail 1 sep) (fun l => [(1, (0, length l))]).
Proof.
  intros Fr. rewrite (fresh_prepare 1 e Fr). unfold bert_other, dressed.
  rewrite bert_tail_of_rows.
  2:{ eapply good_unmarked, fresh_node; [exact Fr|constructor]. }
  2:{ eapply (good_typed 1), fresh_node; [exact Fr|constructor]. }
  unfold tail at 1. f_equal. cbn [overflowing of_rows]. rewrite map_map. apply map_ext_in. intros o Ho.
  apply bert_tail_of_rows.
  - eapply good_unmarked, fresh_node; [exact Fr|]. eapply node_over; [exact Ho|constructor].
  - eapply (good_typed 1), fresh_node; [exact Fr|]. eapply node_over; [exact Ho|constructor].
Qed.

Lemma pres_wrap s ty a b l :
  pres (of_rows (wrap ty a b l) [] [(s, (1, S (length l)))])
       ((None, added_row ty a) :: map (fun r => (Some s, typed ty r)) l ++ [(None, added_row ty b)]) [s].
Proof.
  pose proof (pres_of_rows s [added_row ty a] (map (typed ty) l) [added_row ty b] []) as H.
  rewrite map_length, map_map in H. exact H.
Qed.

Lemma pres_tail s ty b l :
  pres (of_rows (tail ty b l) [] [(s, (0, length l))])
       (map (fun r => (Some s, typed ty r)) l ++ [(None, added_row ty b)]) [s].
Proof.
  pose proof (pres_of_rows s [] (map (typed ty) l) [added_row ty b] []) as H.
  rewrite map_length, map_map in H. exact H.
Qed.

(** ** RoBERTa *)
Definition trow (is_ws : N -> bool) (aps : bool) (l : list row) : list row :=
  rows (process_offsets is_ws aps (of_rows l [] [])).

Lemma trim_loop_length is_ws aps i toks os : length (trim_loop is_ws aps i toks os) = length os.
Proof.
  revert i os; induction toks as [|t toks IH]; intros i [|o os]; cbn [trim_loop length]; auto.
Qed.

Lemma process_offsets_same_lengths is_ws aps e : same_lengths e -> same_lengths (process_offsets is_ws aps e).
Proof.
  unfold same_lengths, process_offsets, enc_len; unfold_enc. rewrite trim_loop_length. tauto.
Qed.

Lemma process_offsets_of_rows is_ws aps l o m :
  process_offsets is_ws aps (of_rows l o m) = of_rows (trow is_ws aps l) o m.
Proof.
  rewrite (of_rows_eq (process_offsets is_ws aps (of_rows l o m)))
    by (apply process_offsets_same_lengths, of_rows_same_lengths).
  reflexivity.
Qed.

Lemma rows_process_offsets is_ws aps e : same_lengths e ->
  rows (process_offsets is_ws aps e) = trow is_ws aps (rows e).
Proof. intros H. rewrite (of_rows_eq e H) at 1. rewrite process_offsets_of_rows. apply rows_of_rows. Qed.

Lemma trow_length is_ws aps l : length (trow is_ws aps l) = length l.
Proof.
  unfold trow. rewrite rows_length by (apply process_offsets_same_lengths, of_rows_same_lengths).
  unfold enc_len, process_offsets; unfold_enc. apply map_length.
Qed.

Lemma trow_map {B} (f : row -> B) is_ws aps l :
  (forall i t k w o o' s a, f (Row i t k w o s a) = f (Row i t k w o' s a)) ->
  map f (trow is_ws aps l) = map f l.
Proof.
  intros H. unfold trow, process_offsets, rows, of_rows; unfold_enc. generalize 0.
  induction l as [|[i t k w o sm am] l IH]; intros n; [reflexivity|].
  cbn [map trim_loop combine r_id r_type r_token r_word r_off r_special r_attention]. rewrite IH. f_equal. apply H.
Qed.

Lemma Forall_trow (P : row -> Prop) is_ws aps l :
  (forall i t k w o o' s a, P (Row i t k w o s a) -> P (Row i t k w o' s a)) ->
  Forall P l -> Forall P (trow is_ws aps l).
Proof.
  intros H. unfold trow, process_offsets, rows, of_rows; unfold_enc. generalize 0.
  induction l as [|[i t k w o sm am] l IH]; intros n F; [constructor|]. inversion F; subst.
  cbn [map trim_loop combine r_id r_type r_token r_word r_off r_special r_attention]. constructor; [|apply IH; assumption].
  eapply H; eassumption.
Qed.

Definition maybe_trim (is_ws : N -> bool) (trim aps : bool) (l : list row) : list row :=
  if trim then trow is_ws aps l else l.

Lemma maybe_trim_length is_ws trim aps l : length (maybe_trim is_ws trim aps l) = length l.
Proof. destruct trim; [apply trow_length|reflexivity]. Qed.

Lemma unmarked_trim is_ws trim aps l : Forall unmarked l -> Forall unmarked (maybe_trim is_ws trim aps l).
Proof. destruct trim; [|auto]. apply Forall_trow. intros; assumption. Qed.

Lemma good_trim s is_ws trim aps l : good s l -> good s (maybe_trim is_ws trim aps l).
Proof. destruct trim; [|auto]. apply Forall_trow. intros; assumption. Qed.

Lemma trim_dressed is_ws (trim aps : bool) e w k :
  (if trim then trim_all is_ws aps (dressed e w k) else dressed e w k) =
  dressed e (fun l => maybe_trim is_ws trim aps (w l)) k.
Proof.
  destruct trim; [|reflexivity]. unfold trim_all, dressed. rewrite process_offsets_of_rows.
  unfold set_overflowing. cbn [overflowing of_rows ids type_ids tokens words offsets special_tokens_mask attention_mask sequence_ranges].
  rewrite map_map. unfold of_rows at 1 2. f_equal. apply map_ext. intros o. apply process_offsets_of_rows.
Qed.

Lemma prepare_dressed s e : fresh s e -> prepare s e = dressed e (fun l => l) (fun l => [(s, (0, length l))]).
Proof. intros H. rewrite (fresh_prepare s e H). reflexivity. Qed.

(** The type ids of the encoding itself, not of the overflowing ones. *)
Definition retype (ty : N) (e : encoding) : encoding := set_type_ids e (repeat ty (enc_len e)).

Lemma retype_of_rows ty l o m : retype ty (of_rows l o m) = of_rows (map (typed ty) l) o m.
Proof. unfold retype. rewrite of_rows_len. apply set_types_of_rows. Qed.

Lemma typed_unmarked ty l : Forall unmarked l -> Forall unmarked (map (typed ty) l).
Proof. induction 1; cbn; constructor; assumption. Qed.

Lemma typed_typed a b r : typed a (typed b r) = typed a r.
Proof. destruct r; reflexivity. Qed.

Lemma roberta_first_fresh is_ws (trim aps : bool) sep cls e : fresh 0 e ->
  roberta_first sep cls (retype 0 (if trim then trim_all is_ws aps (prepare 0 e) else prepare 0 e)) =
  dressed e (fun l => wrap 0 cls sep (maybe_trim is_ws trim aps l)) (fun l => [(0, (1, S (length l)))]).
Proof.
  intros Fr. rewrite (prepare_dressed 0 e Fr), trim_dressed. unfold dressed at 1. rewrite retype_of_rows.
  unfold roberta_first. cbn [overflowing of_rows].
  set (t := maybe_trim is_ws trim aps).
  assert (U : forall x, node e x -> Forall unmarked (t (rows x))).
  { intros x Hx. apply unmarked_trim. eapply good_unmarked, fresh_node; eassumption. }
  assert (E : [0%N] ++ map r_type (map (typed 0) (t (rows e))) ++ [0%N] = repeat 0%N (length (map (typed 0) (t (rows e))) + 2)).
  { rewrite map_map, (map_const_repeat (fun x => r_type (typed 0 x)) 0%N) by reflexivity. rewrite map_length.
    replace (length (t (rows e)) + 2) with (S (length (t (rows e)) + 1)) by lia. cbn [repeat app].
    rewrite repeat_app. reflexivity. }
  cbn [type_ids of_rows].
  fold (of_rows (map (typed 0) (t (rows e)))).
  rewrite E, surround_of_rows by (apply typed_unmarked, U; constructor).
  unfold dressed, wrap. rewrite map_map, (map_ext (fun x => typed 0 (typed 0 x)) (typed 0)) by (intros; apply typed_typed).
  rewrite map_length. unfold t at 3. rewrite maybe_trim_length. f_equal. rewrite map_map.
  apply map_ext_in. intros o Ho.
  replace (length (ids (of_rows (t (rows o)) [] [(0, (0, length (rows o)))])) + 2) with (length (t (rows o)) + 2)
    by (cbn; rewrite map_length; reflexivity).
  rewrite surround_of_rows by (apply U; eapply node_over; [exact Ho|constructor]).
  unfold t. rewrite maybe_trim_length. reflexivity.
Qed.

Lemma roberta_other_fresh is_ws (trim aps : bool) sep e : fresh 1 e ->
  roberta_other sep (retype 0 (if trim then trim_all is_ws aps (prepare 1 e) else prepare 1 e)) =
  dressed e (fun l => wrap 0 sep sep (maybe_trim is_ws trim aps l)) (fun l => [(1, (1, S (length l)))]).
Proof.
  intros Fr. rewrite (prepare_dressed 1 e Fr), trim_dressed. unfold dressed at 1. rewrite retype_of_rows.
  unfold roberta_other. cbn [overflowing of_rows].
  set (t := maybe_trim is_ws trim aps).
  assert (U : forall x, node e x -> Forall unmarked (t (rows x))).
  { intros x Hx. apply unmarked_trim. eapply good_unmarked, fresh_node; eassumption. }
  rewrite roberta_tail_of_rows by (apply typed_unmarked, U; constructor).
  unfold dressed, wrap. rewrite map_map, (map_ext (fun x => typed 0 (typed 0 x)) (typed 0)) by (intros; apply typed_typed).
  rewrite map_length. unfold t at 3. rewrite maybe_trim_length. f_equal. rewrite map_map.
  apply map_ext_in. intros o Ho.
  rewrite roberta_tail_of_rows by (apply U; eapply node_over; [exact Ho|constructor]).
  unfold t. rewrite maybe_trim_length. reflexivity.
Qed.
