(** Settings and helpers of the Node.js bindings: C94. *)
From Verif Require Import Base StrBytes Utf8 EncodingModel TruncPadModel NormModel NormProps NormalizersModel NormalizersProps PreTokModel AddedModel TokenizerModel
  TokenizerProps PySettingsModel PySettingsSpec PySettingsProofs PyInputModel NodeModel NodeSpec.
From Coq Require Import ZArith String.

(** ** Truncation *)
Lemma js_direction_ok o d : match o with Some d => js_get_direction d | None => Ok DRight end = Ok d <-> asks_direction o DRight d.
Proof.
  destruct o as [[s|x]|]; cbn [js_get_direction asks_direction].
  - destruct (str_eqb s (text_of "left")) eqn:L; [|destruct (str_eqb s (text_of "right")) eqn:R].
    + apply str_eqb_eq in L. subst s. split; [intros H; left; split; congruence|].
      intros [[_ ->]|[E _]]; [reflexivity|discriminate].
    + apply str_eqb_eq in R. subst s. split; [intros H; right; split; congruence|].
      intros [[E _]|[_ ->]]; [discriminate|reflexivity].
    + split; [discriminate|]. intros [[-> _]|[-> _]]; [rewrite (proj2 (str_eqb_eq _ _) eq_refl) in L|rewrite (proj2 (str_eqb_eq _ _) eq_refl) in R]; discriminate.
  - split; congruence.
  - split; congruence.
Qed.
Lemma js_default_ok {A} (o : option A) x a : asks o x a <-> a = js_default o x.
Proof. destruct o; reflexivity. Qed.
Lemma trunc_asked n o p : (let! q := match o with Some o => js_trunc_params o | None => Ok (mkTruncParams DRight 512 LongestFirst 0) end in
    Ok (mkTruncParams (tp_direction q) n (tp_strategy q) (tp_stride q))) = Ok p <-> asks_truncation n o p.
Proof.
  unfold asks_truncation. destruct o as [o|].
  - unfold js_trunc_params. rewrite <- js_direction_ok, !js_default_ok. destruct p as [d m s st]. cbn [tp_direction tp_max_length tp_strategy tp_stride].
    destruct (match jt_direction o with Some d => _ | None => _ end) as [d'| |]; cbn [bind].
    + cbn [tp_direction tp_max_length tp_strategy tp_stride]. split; [intros H; injection H as <- <- <- <-; auto|].
      intros (<- & E & <- & <-). injection E as ->. reflexivity.
    + split; [discriminate|]. intros (_ & E & _). discriminate.
    + split; [discriminate|]. intros (_ & E & _). discriminate.
  - destruct p as [d m s st]. cbn [bind tp_direction tp_max_length tp_strategy tp_stride].
    split; [intros H; injection H as <- <- <- <-; auto|]. intros (<- & -> & -> & ->). reflexivity.
Qed.
Lemma js_trunc_no o : js_trunc_params o <> Panic.
Proof. unfold js_trunc_params. destruct (jt_direction o) as [[s|d]|]; cbn [js_get_direction]; try (destruct (str_eqb s (text_of "left")); [|destruct (str_eqb s (text_of "right"))]); discriminate. Qed.

(** Which settings are in force after [setTruncation]: those that are asked for, when the
    stride leaves room. *)
Theorem C94_truncation t n o t' :
  js_set_truncation t n o = Ok t' <-> exists p, asks_truncation n o p /\ tp_stride p + n_added t false <= n /\ t' = set_truncation t (Some p).
Proof.
  unfold js_set_truncation. pose proof (trunc_asked n o) as A.
  destruct (match o with Some _ => _ | None => _ end) as [q| |]; cbn [bind] in *.
  - set (p := mkTruncParams (tp_direction q) n (tp_strategy q) (tp_stride q)) in *. unfold with_truncation.
    change (tp_max_length p) with n. destruct (n <? n_added t false) eqn:L1; [|destruct (n - n_added t false <? tp_stride p) eqn:L2].
    + split; [discriminate|]. intros (p' & H & B & _). lia.
    + split; [discriminate|]. intros (p' & H & B & _). apply A in H. injection H as <-. lia.
    + split; [intros H; injection H as <-; exists p; split; [apply A; reflexivity|split; [lia|reflexivity]]|].
      intros (p' & H & B & ->). apply A in H. assert (p = p') as <- by congruence. reflexivity.
  - split; [discriminate|]. intros (p & H & _). apply A in H. discriminate.
  - split; [discriminate|]. intros (p & H & _). apply A in H. discriminate.
Qed.
(** It throws exactly when the direction is a text that is none of the two. *)
Theorem C94_truncation_error t n o : js_set_truncation t n o = Err tt <-> forall p, ~ asks_truncation n o p.
Proof.
  unfold js_set_truncation. pose proof (trunc_asked n o) as A. pose proof (fun o => js_trunc_no o) as NP.
  assert (NP' : match o with Some o => js_trunc_params o | None => Ok (mkTruncParams DRight 512 LongestFirst 0) end <> Panic) by (destruct o; [apply NP|discriminate]).
  destruct (match o with Some _ => _ | None => _ end) as [q|[]|]; cbn [bind] in *; [|split; [|reflexivity]|congruence].
  - split; [destruct with_truncation; discriminate|]. intros H. exfalso. exact (H _ (proj1 (A _) eq_refl)).
  - intros _ p H. apply A in H. discriminate.
Qed.

Lemma has_same name : has_key (text_of name) name = true.
Proof. apply key_eq. reflexivity. Qed.
Lemma get_size n : u32 n -> get_usize (py_size n) = Ok n.
Proof. intros U. unfold u32 in U. apply get_usize_ok. split; [lia|]. left. reflexivity. Qed.
Lemma get_id n : (n < 2 ^ 32)%N -> get_u32 (py_id n) = Ok n.
Proof. intros U. apply get_u32_ok. split; [lia|]. left. reflexivity. Qed.
Lemma get_py_strategy s : get_strategy (py_strategy s) = Ok s.
Proof. destruct s; reflexivity. Qed.
Lemma get_py_direction d : match js_get_direction d with Ok x => get_direction (py_direction d) = Ok x | _ => exists e, get_direction (py_direction d) = Err e end.
Proof.
  destruct d as [s|[]]; [|reflexivity|reflexivity]. cbn [js_get_direction py_direction].
  destruct (str_eqb s (text_of "left")) eqn:L; [|destruct (str_eqb s (text_of "right")) eqn:R].
  - apply str_eqb_eq in L. subst s. reflexivity.
  - apply str_eqb_eq in R. subst s. reflexivity.
  - unfold get_direction, get_str. cbn [bind py_direction]. destruct (forallb is_scalar s); cbn [bind].
    + rewrite L, R. eauto.
    + eauto.
Qed.
(** The same settings given in Python lead to the same tokenizer. *)
Theorem C94_truncation_python t n o t' : u32 n -> u32_truncation o ->
  (js_set_truncation t n o = Ok t' <-> enable_truncation t (python_truncation n o) = (t', Ok tt)).
Proof.
  intros U V.
  assert (X : match (match o with Some o => js_trunc_params o | None => Ok (mkTruncParams DRight 512 LongestFirst 0) end) with
              | Ok q => (let! m := get_usize (py_size n) in fold_kwargs trunc_kwarg (mkTruncParams DRight m LongestFirst 0) (python_truncation n o)) = Ok (mkTruncParams (tp_direction q) n (tp_strategy q) (tp_stride q))
              | _ => exists e, (let! m := get_usize (py_size n) in fold_kwargs trunc_kwarg (mkTruncParams DRight m LongestFirst 0) (python_truncation n o)) = Err e
              end).
  { rewrite (get_size n U). cbn [bind]. unfold python_truncation. cbn [fold_kwargs].
    change (trunc_kwarg (mkTruncParams DRight n LongestFirst 0) (text_of "max_length") (py_size n)) with (@Ok set_error _ (mkTruncParams DRight n LongestFirst 0)).
    destruct o as [[ml st d sd]|]; [|reflexivity]. unfold js_trunc_params. cbn [bind jt_direction jt_max_length jt_strategy jt_stride].
    assert (F : fold_kwargs trunc_kwarg (mkTruncParams DRight n LongestFirst 0) (optional "stride" py_size sd ++ optional "strategy" py_strategy st ++ optional "direction" py_direction d) =
                fold_kwargs trunc_kwarg (mkTruncParams DRight n (js_default st LongestFirst) (js_default sd 0)) (optional "direction" py_direction d)).
    { assert (G : forall q r, fold_kwargs trunc_kwarg q (optional "stride" py_size sd ++ r) = fold_kwargs trunc_kwarg (mkTruncParams (tp_direction q) (tp_max_length q) (tp_strategy q) (js_default sd (tp_stride q))) r).
      { intros q r. destruct sd as [k|]; [|destruct q; reflexivity]. cbn [optional app fold_kwargs]. unfold trunc_kwarg at 1. rewrite has_same, (get_size k V). reflexivity. }
      assert (G' : forall q r, fold_kwargs trunc_kwarg q (optional "strategy" py_strategy st ++ r) = fold_kwargs trunc_kwarg (mkTruncParams (tp_direction q) (tp_max_length q) (js_default st (tp_strategy q)) (tp_stride q)) r).
      { intros q r. destruct st as [k|]; [|destruct q; reflexivity]. cbn [optional app fold_kwargs]. unfold trunc_kwarg at 1.
        change (has_key (text_of "strategy") "stride") with false. rewrite has_same, get_py_strategy. reflexivity. }
      rewrite G, G'. reflexivity. }
    rewrite F. destruct d as [d|]; [|reflexivity]. pose proof (get_py_direction d) as D. cbn [optional fold_kwargs]. unfold trunc_kwarg.
    change (has_key (text_of "direction") "stride") with false. change (has_key (text_of "direction") "strategy") with false. rewrite has_same.
    destruct (js_get_direction d) as [x| |]; cbn [bind].
    - rewrite D. reflexivity.
    - destruct D as (er & ->). cbn [bind]. eauto.
    - destruct D as (er & ->). cbn [bind]. eauto. }
  unfold js_set_truncation, enable_truncation.
  assert (G : get_kw (python_truncation n o) "max_length" = Some (py_size n)) by reflexivity. rewrite G.
  destruct (match o with Some _ => _ | None => _ end) as [q| |]; cbn [bind].
  - rewrite X. destruct with_truncation; split; congruence.
  - destruct X as (er & ->). split; congruence.
  - destruct X as (er & ->). split; congruence.
Qed.

(** ** Padding *)
Lemma pad_asked o p : js_pad_params o = Ok p <-> asks_padding o p.
Proof.
  unfold asks_padding, js_pad_params. rewrite <- js_direction_ok, !js_default_ok. destruct p as [s d m i ty tk]. cbn [pp_strategy pp_direction pp_multiple pp_id pp_type_id pp_token].
  destruct (match jp_direction o with Some d => _ | None => _ end) as [d'| |]; cbn [bind].
  - split; [intros H; injection H as <- <- <- <- <- <-; repeat split; reflexivity|]. intros (E & -> & -> & -> & -> & ->). injection E as ->. reflexivity.
  - split; [discriminate|]. intros (E & _). discriminate.
  - split; [discriminate|]. intros (E & _). discriminate.
Qed.
Lemma js_pad_no o : js_pad_params o <> Panic.
Proof. unfold js_pad_params. destruct (jp_direction o) as [[s|d]|]; cbn [js_get_direction]; try (destruct (str_eqb s (text_of "left")); [|destruct (str_eqb s (text_of "right"))]); discriminate. Qed.
Theorem C94_padding t o t' : js_set_padding t (Some o) = Ok t' <-> exists p, asks_padding o p /\ t' = with_padding t (Some p).
Proof.
  unfold js_set_padding. pose proof (pad_asked o) as A. destruct (js_pad_params o) as [q| |]; cbn [bind].
  - split; [intros H; injection H as <-; exists q; split; [apply A|]; reflexivity|]. intros (p & H & ->). apply A in H. congruence.
  - split; [discriminate|]. intros (p & H & _). apply A in H. discriminate.
  - split; [discriminate|]. intros (p & H & _). apply A in H. discriminate.
Qed.
Theorem C94_padding_error t o : js_set_padding t (Some o) = Err tt <-> forall p, ~ asks_padding o p.
Proof.
  unfold js_set_padding. pose proof (pad_asked o) as A. pose proof (js_pad_no o) as NP. destruct (js_pad_params o) as [q|[]|]; cbn [bind]; [| |congruence].
  - split; [discriminate|]. intros H. exfalso. exact (H _ (proj1 (A _) eq_refl)).
  - split; [|reflexivity]. intros _ p H. apply A in H. discriminate.
Qed.
Theorem C94_padding_python t o t' : u32_padding o ->
  (js_set_padding t (Some o) = Ok t' <-> enable_padding t (python_padding o) = (t', Ok tt)).
Proof.
  intros (U1 & U2 & U3 & U4 & U5).
  assert (X : match js_pad_params o with
              | Ok q => fold_kwargs pad_kwarg default_padding (python_padding o) = Ok q
              | _ => exists e, fold_kwargs pad_kwarg default_padding (python_padding o) = Err e
              end).
  { destruct o as [ml d m i ty tk]. cbn [jp_max_length jp_direction jp_multiple jp_id jp_type_id jp_token given_u32] in *. unfold python_padding.
    cbn [jp_max_length jp_direction jp_multiple jp_id jp_type_id jp_token].
    assert (G1 : forall q r, fold_kwargs pad_kwarg q (optional "length" py_size ml ++ r) = fold_kwargs pad_kwarg (mkPadParams (match ml with Some n => Fixed n | None => pp_strategy q end) (pp_direction q) (pp_multiple q) (pp_id q) (pp_type_id q) (pp_token q)) r).
    { intros q r. destruct ml as [k|]; [|destruct q; reflexivity]. cbn [optional app fold_kwargs]. unfold pad_kwarg at 1.
      change (has_key (text_of "length") "direction") with false. change (has_key (text_of "length") "pad_to_multiple_of") with false. change (has_key (text_of "length") "pad_id") with false.
      change (has_key (text_of "length") "pad_type_id") with false. change (has_key (text_of "length") "pad_token") with false. change (has_key (text_of "length") "max_length") with false.
      rewrite has_same. cbn [orb]. unfold get_option. change (match py_size k with VNone => Ok None | _ => _ end) with (let! a := get_usize (py_size k) in Ok (Some a)). rewrite (get_size k U1). reflexivity. }
    assert (G3 : forall q r, fold_kwargs pad_kwarg q (optional "pad_to_multiple_of" py_size m ++ r) = fold_kwargs pad_kwarg (mkPadParams (pp_strategy q) (pp_direction q) (match m with Some n => Some n | None => pp_multiple q end) (pp_id q) (pp_type_id q) (pp_token q)) r).
    { intros q r. destruct m as [k|]; [|destruct q; reflexivity]. cbn [optional app fold_kwargs]. unfold pad_kwarg at 1.
      change (has_key (text_of "pad_to_multiple_of") "direction") with false. rewrite has_same. unfold get_option.
      change (match py_size k with VNone => Ok None | _ => _ end) with (let! a := get_usize (py_size k) in Ok (Some a)). rewrite (get_size k U2). reflexivity. }
    assert (G4 : forall q r, fold_kwargs pad_kwarg q (optional "pad_id" py_id i ++ r) = fold_kwargs pad_kwarg (mkPadParams (pp_strategy q) (pp_direction q) (pp_multiple q) (js_default i (pp_id q)) (pp_type_id q) (pp_token q)) r).
    { intros q r. destruct i as [k|]; [|destruct q; reflexivity]. cbn [optional app fold_kwargs]. unfold pad_kwarg at 1.
      change (has_key (text_of "pad_id") "direction") with false. change (has_key (text_of "pad_id") "pad_to_multiple_of") with false. rewrite has_same, (get_id k U3). reflexivity. }
    assert (G5 : forall q r, fold_kwargs pad_kwarg q (optional "pad_type_id" py_id ty ++ r) = fold_kwargs pad_kwarg (mkPadParams (pp_strategy q) (pp_direction q) (pp_multiple q) (pp_id q) (js_default ty (pp_type_id q)) (pp_token q)) r).
    { intros q r. destruct ty as [k|]; [|destruct q; reflexivity]. cbn [optional app fold_kwargs]. unfold pad_kwarg at 1.
      change (has_key (text_of "pad_type_id") "direction") with false. change (has_key (text_of "pad_type_id") "pad_to_multiple_of") with false. change (has_key (text_of "pad_type_id") "pad_id") with false.
      rewrite has_same, (get_id k U4). reflexivity. }
    assert (G6 : forall q, fold_kwargs pad_kwarg q (optional "pad_token" VStr tk) = Ok (mkPadParams (pp_strategy q) (pp_direction q) (pp_multiple q) (pp_id q) (pp_type_id q) (js_default tk (pp_token q)))).
    { intros q. destruct tk as [k|]; [|destruct q; reflexivity]. cbn [optional fold_kwargs]. unfold pad_kwarg at 1.
      change (has_key (text_of "pad_token") "direction") with false. change (has_key (text_of "pad_token") "pad_to_multiple_of") with false. change (has_key (text_of "pad_token") "pad_id") with false.
      change (has_key (text_of "pad_token") "pad_type_id") with false. rewrite has_same. unfold get_str. rewrite U5. reflexivity. }
    rewrite G1. unfold js_pad_params. cbn [jp_max_length jp_direction jp_multiple jp_id jp_type_id jp_token].
    destruct d as [d|].
    - pose proof (get_py_direction d) as D.
      assert (G2 : forall q r, fold_kwargs pad_kwarg q (optional "direction" py_direction (Some d) ++ r) = let! x := get_direction (py_direction d) in
                     fold_kwargs pad_kwarg (mkPadParams (pp_strategy q) x (pp_multiple q) (pp_id q) (pp_type_id q) (pp_token q)) r).
      { intros q r. cbn [optional app fold_kwargs]. unfold pad_kwarg at 1. rewrite has_same. destruct get_direction; reflexivity. }
      rewrite G2. destruct (js_get_direction d) as [x| |]; cbn [bind].
      + rewrite D. cbn [bind]. rewrite G3, G4, G5, G6. destruct m; reflexivity.
      + destruct D as (er & ->). cbn [bind]. eauto.
      + destruct D as (er & ->). cbn [bind]. eauto.
    - cbn [optional app bind]. rewrite G3, G4, G5, G6. destruct m; reflexivity. }
  unfold js_set_padding, enable_padding. destruct (js_pad_params o) as [q| |]; cbn [bind].
  - rewrite X. split; congruence.
  - destruct X as (er & ->). split; congruence.
  - destruct X as (er & ->). split; congruence.
Qed.

(** ** Histories of settings *)
Lemma last_set_cons {A} (sets : js_call -> A -> Prop) c l before x y :
  last_set sets l x y -> (sets c x \/ (x = before /\ forall z, ~ sets c z)) -> last_set sets (c :: l) before y.
Proof.
  intros [[-> N']|(l1 & c' & l2 & -> & S' & N')] H.
  - destruct H as [S'|[-> N'']].
    + right. exists [], c, l. auto.
    + left. split; [reflexivity|]. intros c' z [<-|J]; auto.
  - right. exists (c :: l1), c', l2. auto.
Qed.
(** After any history of settings, errors thrown and caught included, truncation and padding
    are what the last call that sets them says; nothing else has changed. *)
Theorem C94_history l : forall t t', js_run t l = Ok t' ->
  last_set sets_truncation l (tz_truncation t) (tz_truncation t') /\ last_set sets_padding l (tz_padding t) (tz_padding t') /\
  t' = with_padding (set_truncation t (tz_truncation t')) (tz_padding t').
Proof.
  induction l as [|c l IH]; intros t t' H.
  - injection H as <-. repeat split; [left; split; [reflexivity|intros ? ? []]|left; split; [reflexivity|intros ? ? []]|destruct t; reflexivity].
  - cbn [js_run] in H.
    assert (X : exists u, js_run u l = Ok t' /\
      (sets_truncation c (tz_truncation u) \/ (tz_truncation u = tz_truncation t /\ forall z, ~ sets_truncation c z)) /\
      (sets_padding c (tz_padding u) \/ (tz_padding u = tz_padding t /\ forall z, ~ sets_padding c z)) /\
      u = with_padding (set_truncation t (tz_truncation u)) (tz_padding u)).
    { destruct (js_do t c) as [u|[]|] eqn:D; [exists u|exists t|discriminate]; (split; [exact H|]).
      - destruct c as [n o| |[o|]|]; cbn [js_do] in D.
        + apply C94_truncation in D. destruct D as (p & A & _ & ->). split; [left; exists p; auto|]. split; [right; split; [reflexivity|intros z []]|reflexivity].
        + injection D as <-. split; [left; reflexivity|]. split; [right; split; [reflexivity|intros z []]|reflexivity].
        + apply C94_padding in D. destruct D as (p & A & ->). split; [right; split; [reflexivity|intros z []]|]. split; [left; exists p; auto|destruct t; reflexivity].
        + injection D as <-. split; [right; split; [reflexivity|intros z []]|]. split; [left; reflexivity|destruct t; reflexivity].
        + injection D as <-. split; [right; split; [reflexivity|intros z []]|]. split; [left; reflexivity|destruct t; reflexivity].
      - destruct c as [n o| |[o|]|]; cbn [js_do] in D; try discriminate.
        + pose proof (proj1 (C94_truncation_error t n o) D) as N'. split; [right; split; [reflexivity|intros z (p & A & _); exact (N' p A)]|]. split; [right; split; [reflexivity|intros z []]|destruct t; reflexivity].
        + pose proof (proj1 (C94_padding_error t o) D) as N'. split; [right; split; [reflexivity|intros z []]|]. split; [right; split; [reflexivity|intros z (p & A & _); exact (N' p A)]|destruct t; reflexivity]. }
    destruct X as (u & R & X1 & X2 & X3). destruct (IH u t' R) as (I1 & I2 & I3).
    split; [exact (last_set_cons _ _ _ _ _ _ I1 X1)|]. split; [exact (last_set_cons _ _ _ _ _ _ I2 X2)|].
    rewrite I3 at 1. rewrite X3 at 1. reflexivity.
Qed.
(** The history panics only through a call of [setTruncation] whose stride does not leave
    room. *)
Theorem C94_history_panic l t : js_run t l = Panic -> exists n o p, In (CSetTruncation n o) l /\ asks_truncation n o p /\ n < tp_stride p + n_added t false.
Proof.
  assert (G : forall l t u, n_added u false = n_added t false -> js_run u l = Panic ->
    exists n o p, In (CSetTruncation n o) l /\ asks_truncation n o p /\ n < tp_stride p + n_added t false); [|intros H; exact (G l t t eq_refl H)].
  clear. intros l t. induction l as [|c l IH]; intros u E H; [discriminate|]. cbn [js_run] in H.
  assert (K : forall v, n_added v false = n_added t false -> js_run v l = Panic -> exists n o p, In (CSetTruncation n o) (c :: l) /\ asks_truncation n o p /\ n < tp_stride p + n_added t false).
  { intros v Ev Hv. destruct (IH v Ev Hv) as (n & o & p & J & A & B). exists n, o, p. split; [right; exact J|auto]. }
  destruct (js_do u c) as [v| |] eqn:D.
  - apply (K v); [|exact H]. rewrite <- E. destruct c as [n o| |[o|]|]; cbn [js_do] in D.
    + apply C94_truncation in D. destruct D as (p & _ & _ & ->). reflexivity.
    + injection D as <-. reflexivity.
    + apply C94_padding in D. destruct D as (p & _ & ->). reflexivity.
    + injection D as <-. reflexivity.
    + injection D as <-. reflexivity.
  - apply (K u); [exact E|exact H].
  - destruct c as [n o| |[o|]|]; cbn [js_do] in D; try discriminate.
    + destruct (match o with Some o => js_trunc_params o | None => Ok (mkTruncParams DRight 512 LongestFirst 0) end) as [q| |] eqn:Q.
      * pose proof (trunc_asked n o (mkTruncParams (tp_direction q) n (tp_strategy q) (tp_stride q))) as A. rewrite Q in A. cbn [bind] in A.
        pose proof (proj1 A eq_refl) as A'. exists n, o, (mkTruncParams (tp_direction q) n (tp_strategy q) (tp_stride q)). split; [left; reflexivity|]. split; [exact A'|].
        destruct (le_lt_dec (tp_stride q + n_added t false) n) as [B|B]; [|exact B].
        assert (Z' : js_set_truncation u n o = Ok (set_truncation u (Some (mkTruncParams (tp_direction q) n (tp_strategy q) (tp_stride q))))).
        { apply C94_truncation. eexists. split; [exact A'|]. split; [rewrite E; exact B|reflexivity]. }
        congruence.
      * unfold js_set_truncation in D. rewrite Q in D. discriminate.
      * destruct o as [o|]; [exfalso; exact (js_trunc_no o Q)|discriminate].
    + exfalso. unfold js_set_padding in D. pose proof (js_pad_no o). destruct (js_pad_params o); cbn [bind] in D; congruence.
Qed.

(** ** Added tokens *)
Lemma bool_kwarg name (f : py_token -> bool -> py_token) o q r : (forall b t, token_kwarg false t (text_of name) (VBool b) = Ok (f t b)) ->
  fold_kwargs (token_kwarg false) q (optional name VBool o ++ r) = fold_kwargs (token_kwarg false) (match o with Some b => f q b | None => q end) r.
Proof. intros H. destruct o as [b|]; [|reflexivity]. cbn [optional app fold_kwargs]. rewrite H. reflexivity. Qed.
Theorem C94_token content special o : exists t, new_token (Some content) (python_added special o) = Ok t /\ get_token t = js_added_token content special o.
Proof.
  unfold new_token, python_added. cbn [fold_kwargs].
  change (token_kwarg false (token_from content false) (text_of "special") (VBool special)) with (@Ok set_error _ (mkPyToken content special None None None None)).
  cbn [bind]. destruct o as [[sw ls rs nm]|]; [|eexists; split; reflexivity]. cbn [ja_single_word ja_left_strip ja_right_strip ja_normalized].
  rewrite (bool_kwarg "single_word" (fun t b => mkPyToken (pt_content t) (pt_special t) (Some b) (pt_lstrip t) (pt_rstrip t) (pt_normalized t))) by reflexivity.
  rewrite (bool_kwarg "lstrip" (fun t b => mkPyToken (pt_content t) (pt_special t) (pt_single_word t) (Some b) (pt_rstrip t) (pt_normalized t))) by reflexivity.
  rewrite (bool_kwarg "rstrip" (fun t b => mkPyToken (pt_content t) (pt_special t) (pt_single_word t) (pt_lstrip t) (Some b) (pt_normalized t))) by reflexivity.
  rewrite <- (app_nil_r (optional "normalized" _ _)).
  rewrite (bool_kwarg "normalized" (fun t b => mkPyToken (pt_content t) (pt_special t) (pt_single_word t) (pt_lstrip t) (pt_rstrip t) (Some b))) by reflexivity.
  eexists. split; [reflexivity|]. destruct sw, ls, rs, nm; reflexivity.
Qed.

(** ** Encoding texts: what the Python bindings give for text that is not pre-tokenized *)
Theorem C94_encode t s pair o : forallb is_scalar s = true -> (forall p, pair = Some p -> forallb is_scalar p = true) ->
  to_py (js_encode t s pair o) = py_encode t (PyStr s) (option_map PyStr pair) false
    (match o with Some (mkJsEncode _ (Some add)) => add | _ => true end).
Proof.
  intros S' P'. unfold js_encode, py_encode, sequence_input, text_input, py_string. rewrite S'. cbn [bind].
  assert (A : js_add_special o = match o with Some (mkJsEncode _ (Some add)) => add | _ => true end) by (destruct o as [[p [a|]]|]; reflexivity).
  rewrite A. destruct pair as [p|]; [|reflexivity]. cbn [option_map]. rewrite (P' p eq_refl). reflexivity.
Qed.
Theorem C94_encode_batch t l o schedule : Forall (fun s => forallb is_scalar s = true) l ->
  to_py (js_encode_batch t l o schedule) = py_encode_batch false t (map PyStr l) false (match o with Some (mkJsEncode _ (Some add)) => add | _ => true end) schedule.
Proof.
  intros F. unfold js_encode_batch, py_encode_batch.
  assert (A : js_add_special o = match o with Some (mkJsEncode _ (Some add)) => add | _ => true end) by (destruct o as [[p [a|]]|]; reflexivity).
  assert (M : map_res (encode_input_of false) (map PyStr l) = Ok (map (fun s => Single (Raw s)) l)).
  { induction F as [|s l S' _ IH]; [reflexivity|]. cbn [map map_res].
    assert (E : encode_input_of false (PyStr s) = Ok (Single (Raw s))) by (unfold encode_input_of, sequence_input, text_input, py_string; rewrite S'; reflexivity).
    rewrite E. cbn [bind]. rewrite IH. reflexivity. }
  rewrite M, A. reflexivity.
Qed.

(** ** Encodings *)
Theorem C94_encoding_truncate e n stride d dir : asks_direction (Some d) DRight dir ->
  js_truncate (Some e) n stride (Some d) = truncate e n (match stride with Some k => k | None => 0 end) dir.
Proof.
  intros H. apply js_direction_ok in H. unfold js_truncate. rewrite H. cbn [bind]. destruct stride; reflexivity.
Qed.
Theorem C94_encoding_pad e n o p : asks_padding (match o with Some o => o | None => mkJsPad None None None None None None end) p ->
  js_pad_encoding (Some e) n o = Ok (pad n (pp_id p) (pp_type_id p) (pp_token p) (pp_direction p) e).
Proof.
  intros H. apply pad_asked in H. unfold js_pad_encoding. replace (js_default o js_no_pad) with (match o with Some o => o | None => mkJsPad None None None None None None end) by (destruct o; reflexivity).
  rewrite H. reflexivity.
Qed.
Theorem C94_merge l g : js_merge_encodings (map Some l) g = Ok (merge (match g with Some b => b | None => false end) l).
Proof.
  unfold js_merge_encodings. assert (M : map_res (fun e : js_encoding => @Base.of_option unit _ e) (map Some l) = Ok l) by (induction l as [|e l IH]; [reflexivity|cbn [map map_res Base.of_option bind]; rewrite IH; reflexivity]).
  rewrite M. destruct g; reflexivity.
Qed.

(** ** Slices of texts *)
Lemma js_index_ok len x : js_index len x = if (position len x <? 0)%Z then None else Some (Z.to_nat (position len x)).
Proof.
  unfold js_index, position. destruct (0 <=? x)%Z eqn:X; destruct (x <? 0)%Z eqn:Y; try lia; [rewrite Y; reflexivity|reflexivity].
Qed.
Definition slice_from (s : str) (b : option Z) : Z := position (List.length s) (match b with Some x => x | None => 0%Z end).
Definition slice_to (s : str) (e : option Z) : Z := position (List.length s) (match e with Some x => x | None => Z.of_nat (List.length s) end).
Theorem C94_slice s b e : let from := slice_from s b in let to := slice_to s e in
  (0 <= from < to /\ to <= Z.of_nat (List.length s) \/ from = 0 /\ to = 0)%Z ->
  js_slice s b e = Ok (between_chars s from to).
Proof.
  intros from to H. unfold js_slice. rewrite !js_index_ok. change (position (List.length s) (js_default b 0%Z)) with from.
  change (position (List.length s) (js_default e (Z.of_nat (List.length s)))) with to.
  destruct (from <? 0)%Z eqn:B; [lia|]. destruct (to <? 0)%Z eqn:E; [lia|]. unfold between_chars.
  destruct H as [H|[-> ->]]; [|reflexivity].
  remember (Z.to_nat from) as x eqn:Ex. remember (Z.to_nat to) as y eqn:Ey. replace (Z.to_nat (to - from)) with (y - x) by lia.
  assert (D : s = firstn x s ++ firstn (y - x) (skipn x s) ++ skipn (y - x) (skipn x s)) by (rewrite !firstn_skipn; reflexivity).
  assert (La : List.length (firstn x s) = x) by (rewrite firstn_length; lia).
  assert (Lb : List.length (firstn (y - x) (skipn x s)) = y - x) by (rewrite firstn_length, skipn_length; lia).
  pose proof (C18_get_range_of (firstn x s) (firstn (y - x) (skipn x s)) (skipn (y - x) (skipn x s))) as G.
  rewrite <- D, La, Lb in G. replace (x + (y - x)) with y in G by lia. rewrite G; [reflexivity|].
  intros Z'. rewrite Z' in Lb. cbn in Lb. lia.
Qed.
Theorem C94_slice_error s b e : let from := slice_from s b in let to := slice_to s e in
  ~ (0 <= from < to /\ to <= Z.of_nat (List.length s) \/ from = 0 /\ to = 0)%Z -> js_slice s b e = Err tt.
Proof.
  intros from to H. unfold js_slice. rewrite !js_index_ok. change (position (List.length s) (js_default b 0%Z)) with from.
  change (position (List.length s) (js_default e (Z.of_nat (List.length s)))) with to.
  destruct (from <? 0)%Z eqn:B; [reflexivity|]. destruct (to <? 0)%Z eqn:E; [reflexivity|]. unfold get_range_of.
  assert (X : ((Z.to_nat from =? 0) && (Z.to_nat to =? 0))%bool = false) by lia. rewrite X.
  assert (Y : ((List.length s <=? Z.to_nat from) || (List.length s <? Z.to_nat to) || (Z.to_nat to <=? Z.to_nat from))%bool = true) by lia. rewrite Y. reflexivity.
Qed.
(** It never panics, agrees with the [slice] of JavaScript strings when it returns (indexes
    are characters here), and gives a token its text when the token covers some. *)
Theorem C94_slice_ecma s b e x : js_slice s b e = Ok x -> x = ecma_slice s b e.
Proof.
  intros H. destruct (Z_lt_le_dec (slice_from s b) 0) as [A|A]; [rewrite C94_slice_error in H; [discriminate|lia]|].
  destruct (Z_lt_le_dec (slice_from s b) (slice_to s e)) as [B|B].
  - destruct (Z_lt_le_dec (Z.of_nat (List.length s)) (slice_to s e)) as [C|C]; [rewrite C94_slice_error in H; [discriminate|lia]|].
    rewrite C94_slice in H by lia. unfold ecma_slice, clamp. fold (slice_from s b). fold (slice_to s e).
    rewrite !Z.min_l, !Z.max_r by lia. congruence.
  - destruct (Z.eq_dec (slice_from s b) 0) as [C|C]; [destruct (Z.eq_dec (slice_to s e) 0) as [D|D]|]; [|rewrite C94_slice_error in H; [discriminate|lia]|rewrite C94_slice_error in H; [discriminate|lia]].
    rewrite C94_slice in H by lia. unfold ecma_slice, clamp. fold (slice_from s b). fold (slice_to s e). rewrite C, D in *.
    rewrite Z.min_l, Z.max_r by lia. congruence.
Qed.
Theorem C94_slice_token p m q : m <> [] ->
  js_slice (p ++ m ++ q) (Some (Z.of_nat (List.length p))) (Some (Z.of_nat (List.length p + List.length m))) = Ok m.
Proof.
  intros M. assert (L : List.length m <> 0) by (destruct m; [congruence|discriminate]).
  assert (Ls : List.length (p ++ m ++ q) = List.length p + (List.length m + List.length q)) by (rewrite !app_length; reflexivity).
  assert (F : slice_from (p ++ m ++ q) (Some (Z.of_nat (List.length p))) = Z.of_nat (List.length p)) by (unfold slice_from, position; destruct (Z.ltb_spec (Z.of_nat (List.length p)) 0); lia).
  assert (T : slice_to (p ++ m ++ q) (Some (Z.of_nat (List.length p + List.length m))) = Z.of_nat (List.length p + List.length m)) by (unfold slice_to, position; destruct (Z.ltb_spec (Z.of_nat (List.length p + List.length m)) 0); lia).
  rewrite C94_slice; [|rewrite F, T; lia]. rewrite F, T. unfold between_chars. rewrite Nat2Z.id.
  replace (Z.to_nat _) with (List.length m) by lia.
  rewrite skipn_app, skipn_all, Nat.sub_diag. cbn [skipn app]. rewrite firstn_app, firstn_all, Nat.sub_diag. cbn [firstn]. rewrite app_nil_r. reflexivity.
Qed.

(** ** The BERT normalizer *)
Theorem C94_bert T o ns : jb_lowercase o <> Some false \/ jb_strip_accents o <> None ->
  normalize T (js_bert_normalizer (Some o)) ns = normalize T (documented_bert o) ns.
Proof.
  intros H. destruct o as [c h s l]. cbn [jb_lowercase jb_strip_accents] in H.
  destruct s as [s|]; [destruct c as [c|], h as [h|], l as [l|]; reflexivity|].
  destruct l as [[|]|]; [|destruct H; congruence|]; destruct c as [c|], h as [h|]; reflexivity.
Qed.

(** ** Examples and findings *)
Definition js_toy : tokenizer := toy (Some bert) None None.
Definition js_ex_trunc : js_trunc := mkJsTrunc (Some 7) (Some OnlyFirst) (Some (JText (text_of "left"))) (Some 2).
Definition js_ex_pad : js_pad := mkJsPad (Some 8) (Some (JEnum DLeft)) None (Some 3%N) None (Some [112%N]).
Example C94_truncation_example :
  js_set_truncation js_toy 5 (Some js_ex_trunc) = Ok (set_truncation js_toy (Some (mkTruncParams DLeft 5 OnlyFirst 2))) /\
  js_set_truncation js_toy 5 (Some (mkJsTrunc None None (Some (JText [120%N])) None)) = Err tt /\
  u32 5 /\ u32_truncation (Some js_ex_trunc).
Proof. repeat split; reflexivity. Qed.
Example C94_padding_example :
  js_set_padding js_toy (Some js_ex_pad) = Ok (with_padding js_toy (Some (mkPadParams (Fixed 8) DLeft None 3 0 [112%N]))) /\ u32_padding js_ex_pad.
Proof. repeat split; reflexivity. Qed.
Example C94_history_example :
  js_run js_toy [CSetPadding (Some js_ex_pad); CSetTruncation 5 None; CSetTruncation 6 (Some (mkJsTrunc None None (Some (JText [120%N])) None)); CDisablePadding; CSetTruncation 4 (Some js_ex_trunc)]
  = Ok (set_truncation js_toy (Some (mkTruncParams DLeft 4 OnlyFirst 2))) /\
  js_run js_toy [CDisableTruncation; CSetTruncation 3 (Some js_ex_trunc); CDisablePadding] = Panic.
Proof. split; reflexivity. Qed.
Example C94_token_example : js_added_token [97%N] true (Some (mkJsAdded None (Some true) None (Some true))) = mkAdded [97%N] false true false true true.
Proof. reflexivity. Qed.
Example C94_slice_example :
  js_slice abc (Some (-2)%Z) None = Ok [98; 99]%N /\ js_slice abc (Some 0%Z) (Some (-1)%Z) = Ok [97; 98]%N /\ js_slice abc None None = Ok abc /\ js_slice [] None None = Ok [] /\
  js_slice abc (Some (-4)%Z) None = Err tt /\ js_slice abc (Some 2%Z) (Some 1%Z) = Err tt /\ js_slice abc None (Some 4%Z) = Err tt.
Proof. repeat split; reflexivity. Qed.

(** A stride that is too large panics, where Python raises a [ValueError]. *)
Theorem C94_stride_refuted : exists t n o, js_set_truncation t n o = Panic /\ enable_truncation t (python_truncation n o) = (t, Err SValue).
Proof. exists js_toy, 3, (Some js_ex_trunc). split; reflexivity. Qed.
(** [setPadding()] turns padding off, where [enable_padding()] turns it on. *)
Theorem C94_padding_refuted t : js_set_padding t None = Ok (js_disable_padding t) /\ enable_padding t [] = (with_padding t (Some default_padding), Ok tt).
Proof. split; reflexivity. Qed.
(** [isPretokenized] has no effect: a word is split as a text is. *)
Theorem C94_pretokenized_refuted : exists t word o e e',
  je_is_pretokenized o = Some true /\ js_encode t word None (Some o) = Ok e /\ encode t OChar (Single (PreTokenized [word])) true = Ok e' /\
  words e = [Some 0; Some 1]%N /\ words e' = [Some 0; Some 0]%N.
Proof.
  exists (speller None), de, (mkJsEncode (Some true) None).
  destruct (js_encode (speller None) de None (Some (mkJsEncode (Some true) None))) as [e| |] eqn:E; vm_compute in E; [|discriminate E|discriminate E].
  destruct (encode (speller None) OChar (Single (PreTokenized [de])) true) as [e'| |] eqn:E'; vm_compute in E'; [|discriminate E'|discriminate E'].
  exists e, e'. injection E as <-. injection E' as <-. repeat split.
Qed.
(** [encoding.truncate(n)] keeps the end of the text; [setTruncation(n)] and Python's
    [truncate(n)] keep its beginning. *)
Definition js_ex_enc : encoding := mkEnc [1; 2; 3]%N [0; 0; 0]%N [[97]; [98]; [99]]%N [None; None; None] [(0, 1); (1, 2); (2, 3)] [0; 0; 0]%N [1; 1; 1]%N [] [].
Theorem C94_direction_refuted : exists e n a b, js_truncate (Some e) n None None = Ok a /\ ids a = [3%N] /\ truncate e n 0 DRight = Ok b /\ ids b = [1%N] /\
  exists t, js_set_truncation (toy None None None) n None = Ok t /\ option_map tp_direction (tz_truncation t) = Some DRight.
Proof. exists js_ex_enc, 1. eexists. eexists. split; [reflexivity|]. split; [reflexivity|]. split; [reflexivity|]. split; [reflexivity|]. eexists. split; reflexivity. Qed.
(** [slice] refuses an empty range, unless it is at the start; so the text of a token that
    covers no text cannot be had. *)
Theorem C94_slice_refuted : exists s b e, (0 <= b <= e /\ e <= Z.of_nat (List.length s))%Z /\ js_slice s (Some b) (Some e) = Err tt /\ ecma_slice s (Some b) (Some e) = [].
Proof. exists abc, 1%Z, 1%Z. split; [cbn; lia|]. split; reflexivity. Qed.
(** [bertNormalizer({ lowercase: false })] keeps accents, although [stripAccents] is documented
    to be on by default. *)
Theorem C94_bert_refuted : exists T o ns a b, normalize T (js_bert_normalizer (Some o)) ns = Ok a /\ normalize T (documented_bert o) ns = Ok b /\
  n_normalized a = [201%N] /\ n_normalized b = [69%N].
Proof.
  exists ex_tables, (mkJsBert None None None (Some false)), (nfrom [201%N]).
  destruct (normalize ex_tables (js_bert_normalizer (Some (mkJsBert None None None (Some false)))) (nfrom [201%N])) as [a| |] eqn:E; vm_compute in E; [|discriminate E|discriminate E].
  destruct (normalize ex_tables (documented_bert (mkJsBert None None None (Some false))) (nfrom [201%N])) as [b| |] eqn:E'; vm_compute in E'; [|discriminate E'|discriminate E'].
  exists a, b. injection E as <-. injection E' as <-. repeat split.
Qed.
(** An [Encoding] made with [new Encoding()] makes its methods panic. *)
Theorem C94_unset_refuted : js_truncate None 1 None None = Panic /\ js_pad_encoding None 1 None = Panic /\ js_merge_encodings [None] None = Panic.
Proof. repeat split. Qed.
