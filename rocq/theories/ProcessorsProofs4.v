(** Templates, and the number of tokens added by any accurate processor. *)
From Verif Require Import Base AMap ListFacts EncodingModel EncodingSpec EncodingProofs EncodingProofs2
  EncodingProofs3 ByteLevelModel ProcessorsModel ProcessorsSpec ProcessorsProofs ProcessorsProofs2 ProcessorsProofs3.

(** ** Template layouts *)
Definition layout (add : bool) (m : list (list N * special)) (tpl : list piece) : option (list segment) :=
  if add then template_layout m tpl else Some (template_layout_bare tpl).

Definition tready (i : nat) (e0 x : encoding) : Prop :=
  exists l, (forall t, map (typed t) l = map (typed t) (rows e0)) /\
    x = of_rows l (map (fun o => of_rows (rows o) [] [(i, (0, length (rows o)))]) (overflowing e0))
                [(i, (0, length l))].

Lemma tready_step i e0 x ty : tready i e0 x ->
  set_sequence_id (set_type_ids x (repeat ty (enc_len x))) i =
  of_rows (map (typed ty) (rows e0)) (map (fun o => of_rows (rows o) [] [(i, (0, length (rows o)))]) (overflowing e0))
          [(i, (0, length (rows e0)))].
Proof.
  intros (l & Hl & ->).
  assert (El : length l = length (rows e0)) by (specialize (Hl 0%N); apply (f_equal (@length _)) in Hl; rewrite !map_length in Hl; exact Hl).
  fold (retype ty (of_rows l (map (fun o => of_rows (rows o) [] [(i, (0, length (rows o)))]) (overflowing e0)) [(i, (0, length l))])).
  rewrite retype_of_rows, Hl. unfold set_sequence_id. rewrite of_rows_len, map_length.
  unfold set_ranges, of_rows; unfold_enc. cbn [ranges_insert]. rewrite Nat.eqb_refl. reflexivity.
Qed.

Lemma nth_error_update_same {A} (l : list A) i x y : nth_error l i = Some y -> nth_error (update l i x) i = Some x.
Proof. revert i; induction l as [|z l IH]; intros [|i]; cbn; try discriminate; auto. Qed.

Lemma nth_error_update_other {A} (l : list A) i j x : i <> j -> nth_error (update l i x) j = nth_error l j.
Proof. revert i j; induction l as [|z l IH]; intros [|i] [|j] H; cbn; try reflexivity; try congruence. apply IH. congruence. Qed.

Lemma special_encoding_rows sp ty : length (sp_ids sp) = length (sp_tokens sp) ->
  special_encoding sp ty = of_rows (map (added_row ty) (combine (sp_tokens sp) (sp_ids sp))) [] [].
Proof.
  destruct sp as [is ts]. unfold special_encoding, of_rows; cbn [sp_ids sp_tokens]. intros H. rewrite !map_map.
  cbn [added_row r_id r_type r_token r_word r_off r_special r_attention].
  assert (Hl : length is = length (combine ts is)) by (rewrite combine_length; lia).
  f_equal; try (rewrite Hl; symmetry; apply map_const_repeat; reflexivity).
  - clear Hl. revert ts H; induction is as [|i is IH]; intros [|t ts] H; cbn in *; try discriminate; [reflexivity|].
    f_equal. apply IH. lia.
  - clear Hl. revert ts H; induction is as [|i is IH]; intros [|t ts] H; cbn in *; try discriminate; [reflexivity|].
    f_equal. apply IH. lia.
Qed.

Lemma node_no_over e x : overflowing e = [] -> node e x -> x = e.
Proof. intros E H. inversion H as [|o y Hin _]; subst; [reflexivity|]. rewrite E in Hin. contradiction. Qed.

Lemma pres_input i ty (l : list row) o :
  pres (of_rows (map (typed ty) l) o [(i, (0, length l))]) (map (fun r => (Some i, typed ty r)) l) [i].
Proof.
  pose proof (pres_of_rows i [] (map (typed ty) l) [] o) as H.
  rewrite map_length, map_map, !app_nil_r in H. exact H.
Qed.

Lemma get_special_in name m sp : get_special name m = Some sp -> In (name, sp) m.
Proof. apply (aget_In str_eqb str_eqb_eq). Qed.

Lemma lay_out_ext f g segs :
  (forall s ty, In (Input s ty) segs -> f s = g s) -> lay_out f segs = lay_out g segs.
Proof.
  induction segs as [|[toks t|s t] segs IH]; intros H; [reflexivity|..]; unfold lay_out in *; cbn [flat_map].
  - f_equal. apply IH. intros s ty Hin. apply (H s ty). right. exact Hin.
  - rewrite (H s t) by (left; reflexivity). f_equal. apply IH. intros s' ty Hin. apply (H s' ty). right. exact Hin.
Qed.

Lemma layout_inputs add m tpl segs s ty : layout add m tpl = Some segs -> In (Input s ty) segs -> In s (used tpl).
Proof.
  unfold layout. destruct add.
  - revert segs; induction tpl as [|[q t|n t] tpl IH]; intros segs; cbn [template_layout used flat_map app].
    + intros E. injection E as <-. intros [].
    + destruct (template_layout m tpl) as [sg|]; [|discriminate]. intros E. injection E as <-.
      intros [E|Hin]; [injection E as <- <-; left; reflexivity|right; eapply IH; [reflexivity|exact Hin]].
    + destruct (get_special n m); [|discriminate]. destruct (template_layout m tpl) as [sg|]; [|discriminate].
      intros E. injection E as <-. intros [E|Hin]; [discriminate|]. eapply IH; [reflexivity|exact Hin].
  - intros E. injection E as <-. unfold template_layout_bare, used. rewrite !in_flat_map.
    intros (p & Hp & Hin). exists p. split; [exact Hp|]. destruct p; cbn in *; [|exact Hin].
    destruct Hin as [E|[]]. injection E as <- <-. left; reflexivity.
Qed.

Lemma relaxed_inputs segs segs' s ty : Forall2 relaxed segs segs' -> In (Input s ty) segs' -> exists ty', In (Input s ty') segs.
Proof.
  induction 1 as [|a b l l' R F IH]; [intros []|]. intros [->|Hin].
  - destruct R as [<-|(s' & t' & -> & E)]; [exists ty; left; reflexivity|]. injection E as E1 E2.
    subst. exists t'; left; reflexivity.
  - destruct (IH Hin) as (t & Ht). exists t. right; exact Ht.
Qed.

Lemma template_outputs add m tpl : forall es (ins : nat -> encoding) segs,
  special_ok m -> NoDup (used tpl) ->
  (forall i, In i (used tpl) -> exists x, nth_error es i = Some x /\ tready i (ins i) x) ->
  (forall i x, In i (used tpl) -> node (ins i) x -> good i (rows x)) ->
  (forall i o, In i (used tpl) -> In o (overflowing (ins i)) -> same_lengths o) ->
  layout add m tpl = Some segs ->
  exists outs, apply_template m tpl es add = Ok outs /\
    (exists cks, pres_list outs cks /\ concat (map fst cks) = lay_out (fun i => rows (ins i)) segs /\
                 concat (map snd cks) = used tpl) /\
    (forall xs, Forall2 node outs xs -> exists f segs' cks,
        (forall i, node (ins i) (f i)) /\ Forall2 relaxed segs segs' /\
        pres_list xs cks /\ concat (map fst cks) = lay_out (fun i => rows (f i)) segs' /\
        concat (map snd cks) = used tpl).
Proof.
  induction tpl as [|[q ty|name ty] tpl IH]; intros es ins segs Sp ND Rd G SL L.
  - assert (segs = []) as -> by (unfold layout in L; destruct add; cbn in L; congruence).
    exists []. cbn [apply_template]. split; [reflexivity|]. split.
    + exists []. repeat split. constructor.
    + intros xs F. inversion F; subst. exists ins, [], []. repeat split; constructor.
  - cbn [used flat_map app] in *. fold (used tpl) in *. set (i := seq_index q) in *.
    inversion ND as [|? ? Ni ND']; subst.
    assert (exists sg, layout add m tpl = Some sg /\ segs = Input i ty :: sg) as (sg & L' & ->).
    { unfold layout in L |- *. destruct add; cbn [template_layout template_layout_bare flat_map app] in L.
      - destruct (template_layout m tpl) as [sg|]; [|discriminate]. injection L as <-. eauto.
      - injection L as <-. eauto. }
    destruct (Rd i) as (x & Ex & Tx); [left; reflexivity|].
    set (e' := set_sequence_id (set_type_ids x (repeat ty (enc_len x))) i).
    pose proof (tready_step i (ins i) x ty Tx) as Ee. fold e' in Ee.
    destruct (IH (update es i e') ins sg Sp ND') as (outs & Ea & (cks & Hp & Hc & Hk) & Hn).
    { intros j Hj. rewrite nth_error_update_other by (intros ->; contradiction). apply Rd. right; exact Hj. }
    { intros j y Hj. apply G. right; exact Hj. }
    { intros j y Hj. apply SL. right; exact Hj. }
    { exact L'. }
    exists (e' :: outs). split.
    { cbn [apply_template]. fold i. rewrite Ex. cbn [of_option bind]. fold e'. rewrite Ea. reflexivity. }
    split.
    + exists ((map (fun r => (Some i, typed ty r)) (rows (ins i)), [i]) :: cks). repeat split.
      * constructor; [|exact Hp]. cbn [fst snd]. rewrite Ee. apply pres_input.
      * cbn [map fst concat lay_out flat_map]. rewrite Hc. reflexivity.
      * cbn [map snd concat app]. rewrite Hk. reflexivity.
    + intros xs F. inversion F as [|? y ? ys Hy F']; subst.
      destruct (Hn ys F') as (f & segs' & cks' & Hf & Hr & Hp' & Hc' & Hk').
      assert (exists a ty', node (ins i) a /\ relaxed (Input i ty) (Input i ty') /\
                pres y (map (fun r => (Some i, typed ty' r)) (rows a)) [i]) as (a & ty' & Ha & Hra & Hpa).
      { rewrite Ee in Hy. inversion Hy as [|o z Hin Hz]; subst.
        - exists (ins i), ty. split; [constructor|]. split; [left; reflexivity|]. apply pres_input.
        - cbn [overflowing of_rows] in Hin. apply in_map_iff in Hin. destruct Hin as (o0 & <- & Ho0).
          apply node_no_over in Hz; [|reflexivity]. subst y.
          exists o0, (N.of_nat i). split; [eapply node_over; [exact Ho0|constructor]|].
          split; [right; exists i, ty; split; reflexivity|].
          rewrite <- (map_typed_id (N.of_nat i) (rows o0)) at 1.
          + apply pres_input.
          + apply (good_typed i). apply G; [left; reflexivity|]. eapply node_over; [exact Ho0|constructor]. }
      exists (fun j => if j =? i then a else f j), (Input i ty' :: segs'),
        ((map (fun r => (Some i, typed ty' r)) (rows a), [i]) :: cks'). repeat split.
      * intros j. destruct (Nat.eqb_spec j i) as [->|]; [exact Ha|apply Hf].
      * constructor; assumption.
      * constructor; [exact Hpa|exact Hp'].
      * cbn [map fst concat lay_out flat_map]. rewrite Nat.eqb_refl. f_equal. rewrite Hc'.
        apply lay_out_ext. intros s t Hin. destruct (Nat.eqb_spec s i) as [->|]; [|reflexivity].
        exfalso. destruct (relaxed_inputs _ _ _ _ Hr Hin) as (t' & Ht'). apply Ni. eapply layout_inputs; eassumption.
      * cbn [map snd concat app]. rewrite Hk'. reflexivity.
  - change (used (PSpecial name ty :: tpl)) with (used tpl) in *.
    destruct add.
    + unfold layout in L. cbn [template_layout] in L.
      destruct (get_special name m) as [sp|] eqn:Es; [|discriminate].
      destruct (template_layout m tpl) as [sg|] eqn:L'; [|discriminate]. injection L as <-.
      destruct (IH es ins sg Sp ND Rd G SL L') as (outs & Ea & (cks & Hp & Hc & Hk) & Hn).
      pose proof (special_encoding_rows sp ty (Sp _ _ (get_special_in _ _ _ Es))) as Ee.
      set (cs := map (fun t => (@None nat, added_row ty t)) (combine (sp_tokens sp) (sp_ids sp))).
      assert (Hpe : pres (special_encoding sp ty) cs []).
      { rewrite Ee. pose proof (pres_no_ranges (map (added_row ty) (combine (sp_tokens sp) (sp_ids sp))) []) as H.
        rewrite map_map in H. exact H. }
      exists (special_encoding sp ty :: outs). split.
      { cbn [apply_template]. rewrite Es. cbn [of_option bind]. rewrite Ea. reflexivity. }
      split.
      * exists ((cs, []) :: cks). repeat split.
        -- constructor; [exact Hpe|exact Hp].
        -- cbn [map fst concat lay_out flat_map]. rewrite Hc. reflexivity.
        -- cbn [map snd concat app]. exact Hk.
      * intros xs F. inversion F as [|? y ? ys Hy F']; subst.
        apply node_no_over in Hy; [|reflexivity]. subst y.
        destruct (Hn ys F') as (f & segs' & cks' & Hf & Hr & Hp' & Hc' & Hk').
        exists f, (Added (combine (sp_tokens sp) (sp_ids sp)) ty :: segs'), ((cs, []) :: cks'). repeat split.
        -- exact Hf.
        -- constructor; [left; reflexivity|exact Hr].
        -- constructor; [exact Hpe|exact Hp'].
        -- cbn [map fst concat lay_out flat_map]. rewrite Hc'. reflexivity.
        -- cbn [map snd concat app]. exact Hk'.
    + apply (IH es ins segs Sp ND Rd G SL). exact L.
Qed.

Lemma fresh_tready s e : fresh s e -> tready s e (prepare s e).
Proof.
  intros H. exists (rows e). split; [reflexivity|]. apply fresh_prepare, H.
Qed.
