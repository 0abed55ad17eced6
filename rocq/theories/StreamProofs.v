(** Proofs about streaming decoding. *)
From Verif Require Import Base ListFacts StrBytes Utf8 PatternModel PatternProofs StreamModel StreamSpec.

Lemma ends_replacement_spec s : ends_replacement s = false <-> complete s.
Proof.
  unfold ends_replacement, complete. destruct (rev s) as [|c l] eqn:E.
  - apply (f_equal (@rev N)) in E. rewrite rev_involutive in E. subst s. split; [|reflexivity]. intros _ u H. destruct u; discriminate.
  - apply (f_equal (@rev N)) in E. rewrite rev_involutive in E. cbn [rev] in E. subst s. unfold replacement_char. split.
    + intros H u E. apply app_inj_tail in E. destruct E as [_ ->]. rewrite N.eqb_refl in H. discriminate.
    + intros H. destruct (N.eqb_spec c 65533) as [->|]; [|reflexivity]. exfalso. exact (H _ eq_refl).
Qed.

Lemma complete_nil : complete [].
Proof. intros u H. destruct u; discriminate. Qed.
Lemma complete_tail a x : x <> [] -> complete (a ++ x) -> complete x.
Proof. intros _ H u E. apply (H (a ++ u)). rewrite E, app_assoc. reflexivity. Qed.
Lemma complete_app a x : x <> [] -> complete x -> complete (a ++ x).
Proof.
  intros N H u E. destruct (exists_last N) as (x' & c & ->). rewrite app_assoc in E. apply app_inj_tail in E. destruct E as [_ ->]. exact (H x' eq_refl).
Qed.
Lemma blen_zero (x : str) : blen x = 0 -> x = [].
Proof. destruct x as [|c x]; [reflexivity|]. cbn [blen]. pose proof (len_utf8_pos c). lia. Qed.

Section stream.
  Context {E : Type} (dec : list str -> res E str) (tok : N -> option str).
  Definition toks (ids : list N) : list str := flat_map (fun i => match tok i with Some t => [t] | None => [] end) ids.
  Definition D (ids : list N) : res E str := dec (toks ids).
  Lemma toks_app a b : toks (a ++ b) = toks a ++ toks b.
  Proof. apply flat_map_app. Qed.

  (** [h]: ids fed so far; [out]: text produced so far. *)
  Record inv (st : stream) (h : list N) (out : str) (past ctx rest : list N) : Prop := {
    i_split : h = past ++ ctx ++ rest;
    i_ids : s_ids st = ctx ++ rest;
    i_index : s_index st = length ctx;
    i_prefix : match ctx with [] => s_prefix st = [] | _ => D ctx = Ok (s_prefix st) end;
    i_out : match past ++ ctx with [] => out = [] | _ => D (past ++ ctx) = Ok out end;
    i_complete : complete out;
    i_past : match past with [] => s_prefix st = out | _ => toks ctx <> [] /\ exists p, D past = Ok p /\ complete p end;
    i_wait : rest <> [] -> exists s, D (ctx ++ rest) = Ok s /\ ~ (blen (s_prefix st) < blen s /\ complete s) }.

  Lemma inv_start : inv stream_new [] [] [] [] [].
  Proof. split; try reflexivity; [apply complete_nil|congruence]. Qed.

  (** What one more decoding of the window says about the whole. *)
  Lemma inv_grow st h out past ctx rest b x : local dec -> inv st h out past ctx rest ->
    D (ctx ++ rest ++ b) = Ok (s_prefix st ++ x) -> D (h ++ b) = Ok (out ++ x).
  Proof.
    intros L I H. destruct I as [-> Eids Eidx Epre Eout C Epast W]. rewrite <- !app_assoc. destruct past as [|y past].
    - cbn [app] in *. rewrite Epast in H. exact H.
    - destruct Epast as (Nt & p & Ep & Cp). destruct ctx as [|z ctx]; [cbn in Nt; congruence|]. unfold D in *.
      rewrite !toks_app in *. destruct (toks (y :: past)) as [|t ts] eqn:ET.
      + cbn [app] in *. rewrite Epre in Eout. injection Eout as Eout. rewrite <- Eout, <- H. reflexivity.
      + rewrite <- ET in *. apply (proj2 L (toks (y :: past)) (toks (z :: ctx)) (toks rest ++ toks b) p out (s_prefix st) x); try assumption.
        rewrite ET. discriminate.
  Qed.

  (** After [refresh_prefix]. *)
  Lemma inv_refresh st h out past ctx rest st' : local dec -> inv st h out past ctx rest -> refresh_prefix D st = Ok st' ->
    exists ctx' rest', inv st' h out past ctx' rest'.
  Proof.
    intros L I R. pose proof I as [Eh Eids Eidx Epre Eout C Epast W]. unfold refresh_prefix in R.
    destruct (is_nil (s_prefix st) && negb (is_nil (s_ids st))) eqn:B; [|injection R as <-; eauto].
    apply andb_true_iff in B. destruct B as [B1 B2]. assert (P0 : s_prefix st = []) by (destruct (s_prefix st); [reflexivity|discriminate]).
    destruct (D (s_ids st)) as [np|e|] eqn:Ed; cbn [stream_res bind] in R; try discriminate. destruct (ends_replacement np) eqn:Er; [injection R as <-; eauto|].
    injection R as <-. apply ends_replacement_spec in Er. rewrite Eids in *.
    assert (N0 : ctx ++ rest <> []) by (destruct (ctx ++ rest); [discriminate|discriminate]).
    assert (np = []).
    { destruct rest as [|z rest].
      - rewrite app_nil_r in *. destruct ctx; [congruence|]. congruence.
      - destruct (W ltac:(discriminate)) as (s & Es & Ns). rewrite Es in Ed. injection Ed as <-. rewrite P0 in Ns. cbn [blen] in Ns.
        apply blen_zero. destruct (Nat.eq_dec (blen s) 0) as [|X]; [assumption|]. exfalso. apply Ns. split; [lia|exact Er]. }
    subst np. exists (ctx ++ rest), []. split; cbn [s_ids s_prefix s_index]; rewrite ?app_nil_r; try assumption; try reflexivity.
    - destruct (ctx ++ rest) eqn:X; [congruence|]. rewrite <- X in *. exact Ed.
    - assert (G : D (h ++ []) = Ok (out ++ [])).
      { apply (inv_grow st h out past ctx rest [] [] L I); rewrite ?app_nil_r; rewrite P0; exact Ed. }
      rewrite !app_nil_r in G. rewrite <- Eh, G. destruct h as [|z h]; [|reflexivity].
      symmetry in Eh. apply app_eq_nil in Eh. destruct Eh as [_ Eh]. congruence.
    - destruct past as [|y past]; [congruence|]. destruct Epast as [X Y]. split; [|exact Y]. rewrite toks_app. destruct (toks ctx); [congruence|discriminate].
    - congruence.
  Qed.

  Lemma inv_step st h out past ctx rest b st' o : local dec -> inv st h out past ctx rest ->
    step_decode_stream D st b = (st', Ok o) ->
    exists past' ctx' rest', inv st' (h ++ b) (out ++ match o with Some t => t | None => [] end) past' ctx' rest' /\
      match o with Some t => t <> [] /\ rest' = [] | None => True end.
  Proof.
    intros L I0 R. unfold step_decode_stream in R. destruct (refresh_prefix D st) as [st1|e|] eqn:RP; try discriminate.
    destruct (inv_refresh st h out past ctx rest st1 L I0 RP) as (ctx1 & rest1 & I).
    clear I0 RP st ctx rest. pose proof I as [Eh Eids Eidx Epre Eout C Epast W].
    cbn [s_prefix s_index] in R. rewrite Eids, Eidx, <- app_assoc in R. destruct (D (ctx1 ++ rest1 ++ b)) as [string|e|] eqn:Es; cbn [stream_res] in R; try discriminate.
    destruct ((blen (s_prefix st1) <? blen string) && negb (ends_replacement string)) eqn:B.
    - apply andb_true_iff in B. destruct B as [B1 B2]. apply Nat.ltb_lt in B1. apply negb_true_iff, ends_replacement_spec in B2.
      destruct (is_prefix (s_prefix st1) string) eqn:Ep; cbn [negb] in R; [|destruct (is_nil _); discriminate].
      apply is_prefix_spec in Ep. destruct Ep as [x ->]. rewrite !app_length in R.
      replace (length ctx1 <=? length ctx1 + (length rest1 + length b)) with true in R by (symmetry; apply Nat.leb_le; lia).
      rewrite (skipn_app (length ctx1) ctx1), skipn_all, Nat.sub_diag in R. cbn [app] in R. rewrite skipn_O in R.
      rewrite skipn_app, skipn_all, Nat.sub_diag in R. cbn [app] in R. rewrite skipn_O in R.
      destruct (D (rest1 ++ b)) as [np|e|] eqn:En; cbn [stream_res] in R; try discriminate. injection R as <- <-.
      pose proof (inv_grow st1 h out past ctx1 rest1 b x L I Es) as G.
      assert (Nx : x <> []) by (intros ->; rewrite app_nil_r in B1; lia).
      assert (NR : toks (rest1 ++ b) <> []).
      { intros X. assert (Y : D (ctx1 ++ rest1 ++ b) = D ctx1) by (unfold D; rewrite toks_app, X, app_nil_r; reflexivity). rewrite Es in Y.
        destruct ctx1 as [|z ctx1].
        - cbn [app] in Es. unfold D in Es. rewrite X in Es. apply (proj1 L) in Es. apply app_eq_nil in Es. destruct Es. congruence.
        - rewrite Epre in Y. injection Y as Y. rewrite <- (app_nil_r (s_prefix st1)) in Y at 2. apply app_inv_head in Y. congruence. }
      assert (NB : rest1 ++ b <> []) by (intros X; rewrite X in NR; cbn in NR; congruence).
      exists (past ++ ctx1), (rest1 ++ b), []. split; [|split; [exact Nx|reflexivity]]. split; cbn [s_ids s_prefix s_index]; rewrite ?app_nil_r.
      + rewrite Eh, <- !app_assoc. reflexivity.
      + reflexivity.
      + rewrite app_length. lia.
      + destruct (rest1 ++ b); [congruence|]. exact En.
      + destruct ((past ++ ctx1) ++ rest1 ++ b) eqn:X; [apply app_eq_nil in X; destruct X; congruence|]. rewrite <- X, <- !app_assoc.
        rewrite Eh in G. rewrite <- !app_assoc in G. exact G.
      + apply complete_app; [exact Nx|]. exact (complete_tail _ _ Nx B2).
      + destruct (past ++ ctx1) as [|z l] eqn:X.
        * apply app_eq_nil in X. destruct X as [-> ->]. cbn [app] in *. rewrite Epre in *. cbn [app] in *. rewrite En in Es. injection Es as <-. rewrite Eout. reflexivity.
        * split; [exact NR|]. exists out. split; [exact Eout|exact C].
      + congruence.
    - injection R as <- <-. rewrite app_nil_r. exists past, ctx1, (rest1 ++ b). split; [|exact Logic.I]. split; cbn [s_ids s_prefix s_index]; try assumption.
      + rewrite Eh, <- !app_assoc. reflexivity.
      + reflexivity.
      + reflexivity.
      + intros _. exists string. split; [exact Es|]. intros [X Y]. apply Nat.ltb_lt in X. apply ends_replacement_spec in Y. rewrite X, Y in B. discriminate.
  Qed.

  Lemma inv_feed : local dec -> forall batches st h out past ctx rest, inv st h out past ctx rest -> succeeded (feed D st batches) ->
    exists st' past' ctx' rest', inv st' (h ++ concat batches) (out ++ concat (texts (feed D st batches))) past' ctx' rest' /\
      Forall (fun t => t <> []) (texts (feed D st batches)) /\
      (forall front t, feed D st batches = front ++ [Ok (Some t)] -> rest' = []).
  Proof.
    intros L. induction batches as [|b bs IH]; intros st h out past ctx rest I S.
    - exists st, past, ctx, rest. cbn. rewrite !app_nil_r. split; [exact I|]. split; [constructor|]. intros front t X. destruct front; discriminate.
    - cbn [feed] in *. destruct (step_decode_stream D st b) as [st1 o] eqn:R. inversion S as [|? ? (o' & Eo) S']; subst.
      destruct (inv_step st h out past ctx rest b st1 o' L I R) as (past1 & ctx1 & rest1 & I1 & H1).
      destruct (IH st1 _ _ _ _ _ I1 S') as (st' & past' & ctx' & rest' & I' & H' & H2).
      assert (ET : texts (Ok o' :: feed D st1 bs) = match o' with Some t => [t] | None => [] end ++ texts (feed D st1 bs)) by (destruct o'; reflexivity).
      rewrite ET. destruct bs as [|b2 bs].
      + exists st1, past1, ctx1, rest1. cbn [concat feed texts flat_map]. rewrite !app_nil_r. split; [|split].
        * destruct o' as [t|]; cbn [concat app] in *; rewrite ?app_nil_r in *; exact I1.
        * destruct o'; [constructor; [apply H1|constructor]|constructor].
        * intros front t X. destruct front as [|y front]; [|destruct front; discriminate]. injection X as ->. apply H1.
      + exists st', past', ctx', rest'. split; [|split].
        * cbn [concat]. rewrite concat_app. rewrite <- !app_assoc in I'. rewrite app_assoc in I'. rewrite <- app_assoc in I'. destruct o'; cbn [concat app] in *; rewrite ?app_nil_r in *; exact I'.
        * apply Forall_app. split; [|exact H']. destruct o'; [constructor; [apply H1|constructor]|constructor].
        * intros front t X. destruct front as [|y front].
          -- cbn [feed app] in X. destruct (step_decode_stream D st1 b2). discriminate.
          -- cbn [app] in X. injection X as _ X. exact (H2 _ _ X).
  Qed.

  Lemma steady_local : steady dec -> local dec.
  Proof.
    intros (S0 & S1 & S2 & S3). split.
    - intros s H. congruence.
    - intros before part more p q r x N1 N2 E1 C1 E2 C2 E3 E4. destruct (S3 before part more p q r N1 N2 E1 C1 E2 C2 E3) as (y & Y1 & Y2).
      rewrite E4 in Y1. injection Y1 as Y1. apply app_inv_head in Y1. subst y. exact Y2.
  Qed.

  (** The window extends the prefix. *)
  Lemma steady_window st h out past ctx rest more : steady dec -> inv st h out past ctx rest ->
    exists x, D (ctx ++ more) = Ok (s_prefix st ++ x) /\ D (past ++ ctx ++ more) = Ok (out ++ x).
  Proof.
    intros S I. pose proof I as [Eh Eids Eidx Epre Eout C Epast W]. pose proof S as (S0 & S1 & S2 & S3). destruct past as [|y past].
    - cbn [app]. enough (exists x, D (ctx ++ more) = Ok (s_prefix st ++ x)) as (x & X) by (exists x; rewrite X, Epast; auto).
      destruct (toks ctx) as [|t ts] eqn:ET.
      + assert (P0 : s_prefix st = []) by (destruct ctx; [exact Epre|unfold D in Epre; rewrite ET, S0 in Epre; congruence]). rewrite P0.
        destruct (S1 (toks (ctx ++ more))) as (s & Es). exists s. exact Es.
      + unfold D. rewrite toks_app. destruct ctx as [|z ctx]; [discriminate|]. apply S2; [rewrite ET; discriminate|exact Epre|congruence].
    - destruct Epast as (Nt & p & Ep & Cp). destruct ctx as [|z ctx]; [cbn in Nt; congruence|]. unfold D in *. rewrite !toks_app.
      change ((y :: past) ++ z :: ctx) with ((y :: past) ++ (z :: ctx)) in Eout. cbn [app] in Eout. change (y :: past ++ z :: ctx) with ((y :: past) ++ (z :: ctx)) in Eout. rewrite toks_app in Eout.
      destruct (toks (y :: past)) as [|t ts] eqn:ET.
      + cbn [app] in *. rewrite Epre in Eout. injection Eout as <-. destruct (S2 (toks (z :: ctx)) (toks more) _ Nt Epre C) as (x & X). eauto.
      + rewrite <- ET in *. apply (S3 (toks (y :: past)) (toks (z :: ctx)) (toks more) p out (s_prefix st)); try assumption. rewrite ET. discriminate.
  Qed.

  Lemma steady_step st h out past ctx rest b : steady dec -> inv st h out past ctx rest -> exists st' o, step_decode_stream D st b = (st', Ok o).
  Proof.
    intros S I0. pose proof S as (S0 & S1 & _). unfold step_decode_stream.
    assert (RP : exists st1, refresh_prefix D st = Ok st1).
    { unfold refresh_prefix. destruct (_ && _); [|eauto]. destruct (S1 (toks (s_ids st))) as (s & Es). unfold D. rewrite Es. cbn. eauto. }
    destruct RP as (st1 & RP). destruct (inv_refresh st h out past ctx rest st1 (steady_local S) I0 RP) as (ctx1 & rest1 & I). rewrite RP. clear RP I0.
    pose proof I as [Eh Eids Eidx Epre Eout C Epast W]. cbn [s_prefix s_index]. rewrite Eids, Eidx, <- app_assoc.
    destruct (steady_window st1 h out past ctx1 rest1 (rest1 ++ b) S I) as (x & X & _). rewrite X. cbn [stream_res].
    destruct (_ && _); [|eauto].
    replace (is_prefix (s_prefix st1) (s_prefix st1 ++ x)) with true by (symmetry; apply is_prefix_spec; eauto). cbn [negb].
    replace (length ctx1 <=? length (ctx1 ++ rest1 ++ b)) with true by (symmetry; apply Nat.leb_le; rewrite app_length; lia).
    destruct (S1 (toks (skipn (length ctx1) (ctx1 ++ rest1 ++ b)))) as (s & Es). unfold D. rewrite Es. cbn. eauto.
  Qed.

  Lemma steady_feed : steady dec -> forall batches st h out past ctx rest, inv st h out past ctx rest -> succeeded (feed D st batches).
  Proof.
    intros S. induction batches as [|b bs IH]; intros st h out past ctx rest I; [constructor|]. cbn [feed].
    destruct (steady_step st h out past ctx rest b S I) as (st1 & o & R). rewrite R. constructor; [eauto|].
    destruct (inv_step st h out past ctx rest b st1 o (steady_local S) I R) as (past1 & ctx1 & rest1 & I1 & _). eapply IH, I1.
  Qed.
End stream.
