(** Proofs about keyword arguments. *)
From Verif Require Import Base StrBytes Utf8 EncodingModel TruncPadModel AddedModel TokenizerModel PySettingsModel PySettingsSpec.
From Coq Require Import ZArith String.

Lemma key_eq k name : has_key k name = true <-> k = text_of name.
Proof. apply str_eqb_eq. Qed.
Lemma get_cons k v kw name : get_kw ((k, v) :: kw) name = if has_key k name then Some v else get_kw kw name.
Proof. unfold get_kw. cbn [find fst]. destruct (has_key k name); reflexivity. Qed.
Lemma get_given kw name v : a_dict kw -> (get_kw kw name = Some v <-> given kw name v).
Proof.
  unfold a_dict, given. induction kw as [|[k w] kw IH]; intros D; [split; [discriminate|intros []]|]. cbn [map fst] in D. apply NoDup_cons_iff in D. destruct D as (D1 & D2).
  rewrite get_cons. cbn [In]. destruct (has_key k name) eqn:E.
  - apply key_eq in E. subst k. split; [intros [= ->]; left; reflexivity|]. intros [[= ->] | I]; [reflexivity|]. exfalso. apply D1. apply in_map_iff. exists (text_of name, v). auto.
  - rewrite (IH D2). split; [auto|]. intros [[= -> ->] | I]; [|assumption]. exfalso. rewrite (proj2 (key_eq _ _) eq_refl) in E. discriminate.
Qed.
Lemma get_absent kw name : get_kw kw name = None <-> absent kw name.
Proof.
  unfold absent, given. induction kw as [|[k w] kw IH]; [split; [intros _ v []|reflexivity]|]. rewrite get_cons. cbn [In]. destruct (has_key k name) eqn:E.
  - apply key_eq in E. subst k. split; [discriminate|]. intros H. exfalso. apply (H w). left. reflexivity.
  - rewrite IH. split; intros H v; [|intros I; apply (H v); right; assumption]. intros [[= -> ->] | I]; [rewrite (proj2 (key_eq _ _) eq_refl) in E; discriminate|exact (H v I)].
Qed.
Lemma says_get kw name (P : pyval -> Prop) (Q : Prop) : a_dict kw -> (says kw name P Q <-> match get_kw kw name with Some v => P v | None => Q end).
Proof.
  intros D. unfold says. destruct (get_kw kw name) as [v|] eqn:E.
  - split; [|intros H; left; exists v; split; [apply (get_given kw name v D), E|assumption]]. intros [(w & G & H) | (A & _)].
    + apply (get_given kw name w D) in G. congruence.
    + apply get_absent in A. congruence.
  - split; [|intros H; right; split; [apply get_absent, E|assumption]]. intros [(w & G & H) | (_ & H)]; [|assumption]. apply (get_given kw name w D) in G. congruence.
Qed.
Lemma get_none kw name : ~ In (text_of name) (map fst kw) -> get_kw kw name = None.
Proof. intros H. apply get_absent. intros v I. apply H. apply in_map_iff. exists (text_of name, v). auto. Qed.

Lemma get_int_ok limit v z : (1 < limit)%Z -> (get_int limit v = Ok z <-> number limit z v).
Proof.
  intros L. unfold get_int, number. destruct v as [|b|i| |]; try (split; [discriminate|intros (_ & [H | [(H & _) | (H & _)]]); discriminate]).
  - destruct b; split; try (intros [= <-]; split; [lia|auto]); intros (_ & [H | [(H & ->) | (H & ->)]]); try discriminate; reflexivity.
  - destruct ((0 <=? i)%Z && (i <? limit)%Z) eqn:E.
    + split; [intros [= <-]; split; [lia|auto]|]. intros (_ & [[= ->] | [(H & _) | (H & _)]]); try discriminate. reflexivity.
    + split; [discriminate|]. intros (B & [[= ->] | [(H & _) | (H & _)]]); try discriminate. lia.
Qed.
Lemma get_usize_ok v n : get_usize v = Ok n <-> size_of n v.
Proof.
  unfold get_usize, size_of. destruct (get_int 18446744073709551616 v) as [z| |] eqn:E; cbn [bind].
  - apply get_int_ok in E; [|lia]. split.
    + intros [= <-]. destruct E as (B & E). rewrite Z2Nat.id by lia. split; [lia|assumption].
    + intros H. f_equal. destruct E as (B & [-> | [(-> & ->) | (-> & ->)]]); destruct H as (B' & [H | [(H & H') | (H & H')]]); try discriminate H; try injection H as H; lia.
  - split; [discriminate|]. intros H. apply get_int_ok in H; [|lia]. change (2 ^ 64)%Z with 18446744073709551616%Z in H. congruence.
  - split; [discriminate|]. intros H. apply get_int_ok in H; [|lia]. change (2 ^ 64)%Z with 18446744073709551616%Z in H. congruence.
Qed.
Lemma get_u32_ok v n : get_u32 v = Ok n <-> id_of n v.
Proof.
  unfold get_u32, id_of. destruct (get_int 4294967296 v) as [z| |] eqn:E; cbn [bind].
  - apply get_int_ok in E; [|lia]. split.
    + intros [= <-]. destruct E as (B & E). rewrite Z2N.id by lia. split; [lia|assumption].
    + intros H. f_equal. destruct E as (B & [-> | [(-> & ->) | (-> & ->)]]); destruct H as (B' & [H | [(H & H') | (H & H')]]); try discriminate H; try injection H as H; lia.
  - split; [discriminate|]. intros H. apply get_int_ok in H; [|lia]. change (2 ^ 32)%Z with 4294967296%Z in H. congruence.
  - split; [discriminate|]. intros H. apply get_int_ok in H; [|lia]. change (2 ^ 32)%Z with 4294967296%Z in H. congruence.
Qed.
Lemma get_str_ok v s : get_str v = Ok s <-> text_is s v.
Proof.
  unfold get_str, text_is. destruct v; try (split; [discriminate|intros (H & _); discriminate]).
  destruct (forallb is_scalar s0) eqn:E; split; try discriminate; try (intros [= <-]; auto); intros ([= ->] & H); congruence.
Qed.
Lemma get_bool_ok v b : get_bool v = Ok b <-> VBool b = v.
Proof. unfold get_bool. destruct v; split; congruence. Qed.
Lemma get_strategy_ok v s : get_strategy v = Ok s <-> strategy_is s v.
Proof.
  unfold get_strategy, strategy_is, word. destruct (get_str v) as [t| |] eqn:E; cbn [bind].
  - apply get_str_ok in E. destruct E as (-> & E).
    destruct (str_eqb t (text_of "longest_first")) eqn:E1; [apply str_eqb_eq in E1; subst t; split; [intros [= <-]; reflexivity|destruct s; try discriminate; reflexivity]|].
    destruct (str_eqb t (text_of "only_first")) eqn:E2; [apply str_eqb_eq in E2; subst t; split; [intros [= <-]; reflexivity|destruct s; try discriminate; reflexivity]|].
    destruct (str_eqb t (text_of "only_second")) eqn:E3; [apply str_eqb_eq in E3; subst t; split; [intros [= <-]; reflexivity|destruct s; try discriminate; reflexivity]|].
    split; [discriminate|]. destruct s; intros [= ->]; discriminate.
  - split; [discriminate|]. destruct s; intros ->; discriminate E.
  - split; [discriminate|]. destruct s; intros ->; discriminate E.
Qed.
Lemma get_direction_ok v s : get_direction v = Ok s <-> direction_is s v.
Proof.
  unfold get_direction, direction_is, word. destruct (get_str v) as [t| |] eqn:E; cbn [bind].
  - apply get_str_ok in E. destruct E as (-> & E).
    destruct (str_eqb t (text_of "left")) eqn:E1; [apply str_eqb_eq in E1; subst t; split; [intros [= <-]; reflexivity|destruct s; try discriminate; reflexivity]|].
    destruct (str_eqb t (text_of "right")) eqn:E2; [apply str_eqb_eq in E2; subst t; split; [intros [= <-]; reflexivity|destruct s; try discriminate; reflexivity]|].
    split; [discriminate|]. destruct s; intros [= ->]; discriminate.
  - split; [discriminate|]. destruct s; intros ->; discriminate E.
  - split; [discriminate|]. destruct s; intros ->; discriminate E.
Qed.

(** Nothing panics. *)
Lemma get_int_no limit v : get_int limit v <> Panic.
Proof. unfold get_int. destruct v; try discriminate. destruct (_ && _); discriminate. Qed.
Lemma get_usize_no v : get_usize v <> Panic.
Proof. unfold get_usize. pose proof (get_int_no 18446744073709551616 v). destruct (get_int _ v); cbn; congruence. Qed.
Lemma get_u32_no v : get_u32 v <> Panic.
Proof. unfold get_u32. pose proof (get_int_no 4294967296 v). destruct (get_int _ v); cbn; congruence. Qed.
Lemma get_str_no v : get_str v <> Panic.
Proof. unfold get_str. destruct v; try discriminate. destruct (forallb _ _); discriminate. Qed.
Lemma get_bool_no v : get_bool v <> Panic.
Proof. unfold get_bool. destruct v; discriminate. Qed.
Lemma get_strategy_no v : get_strategy v <> Panic.
Proof. unfold get_strategy. pose proof (get_str_no v). destruct (get_str v); cbn [bind]; try congruence. destruct (str_eqb _ _); [discriminate|]. destruct (str_eqb _ _); [discriminate|]. destruct (str_eqb _ _); discriminate. Qed.
Lemma get_direction_no v : get_direction v <> Panic.
Proof. unfold get_direction. pose proof (get_str_no v). destruct (get_str v); cbn [bind]; try congruence. destruct (str_eqb _ _); [discriminate|]. destruct (str_eqb _ _); discriminate. Qed.
Lemma get_option_no {A} (g : pyval -> res set_error A) v : g v <> Panic -> get_option g v <> Panic.
Proof. intros H. unfold get_option. destruct v; try discriminate; destruct (g _); cbn; congruence. Qed.
Lemma fold_no {P} (f : P -> str -> pyval -> res set_error P) kw : (forall p k v, f p k v <> Panic) -> forall p, fold_kwargs f p kw <> Panic.
Proof. intros H. induction kw as [|[k v] kw IH]; intros p; cbn [fold_kwargs]; [discriminate|]. specialize (H p k v). destruct (f p k v); cbn [bind]; [apply IH|discriminate|contradiction]. Qed.
Lemma trunc_kwarg_no p k v : trunc_kwarg p k v <> Panic.
Proof.
  unfold trunc_kwarg. pose proof (get_usize_no v). pose proof (get_strategy_no v). pose proof (get_direction_no v).
  destruct (has_key k "stride"); [destruct (get_usize v); cbn; congruence|]. destruct (has_key k "strategy"); [destruct (get_strategy v); cbn; congruence|].
  destruct (has_key k "direction"); [destruct (get_direction v); cbn; congruence|]. discriminate.
Qed.
Lemma pad_kwarg_no p k v : pad_kwarg p k v <> Panic.
Proof.
  unfold pad_kwarg. pose proof (get_option_no get_usize v (get_usize_no v)). pose proof (get_u32_no v). pose proof (get_str_no v). pose proof (get_direction_no v).
  destruct (has_key k "direction"); [destruct (get_direction v); cbn [bind]; [discriminate|discriminate|contradiction]|]. destruct (has_key k "pad_to_multiple_of"); [destruct (get_option get_usize v); cbn [bind]; [discriminate|discriminate|contradiction]|].
  destruct (has_key k "pad_id"); [destruct (get_u32 v); cbn [bind]; [discriminate|discriminate|contradiction]|]. destruct (has_key k "pad_type_id"); [destruct (get_u32 v); cbn [bind]; [discriminate|discriminate|contradiction]|].
  destruct (has_key k "pad_token"); [destruct (get_str v); cbn [bind]; [discriminate|discriminate|contradiction]|]. destruct (has_key k "max_length" || _); [destruct (get_option get_usize v); cbn [bind]; [discriminate|discriminate|contradiction]|]. discriminate.
Qed.

(** ** The loops *)
Definition opt_field {A} (kw : kwargs) (name : string) (get : pyval -> res set_error A) (x x0 : A) : Prop :=
  match get_kw kw name with Some v => get v = Ok x | None => x = x0 end.
Lemma opt_here {A} k v kw name (get : pyval -> res set_error A) x x0 : k = text_of name -> opt_field ((k, v) :: kw) name get x x0 = (get v = Ok x).
Proof. intros ->. unfold opt_field. rewrite get_cons, (proj2 (key_eq _ _) eq_refl). reflexivity. Qed.
Lemma opt_there {A} k v kw name (get : pyval -> res set_error A) x x0 : has_key k name = false -> opt_field ((k, v) :: kw) name get x x0 = opt_field kw name get x x0.
Proof. intros E. unfold opt_field. rewrite get_cons, E. reflexivity. Qed.
Lemma opt_gone {A} kw name (get : pyval -> res set_error A) x x0 : ~ In (text_of name) (map fst kw) -> opt_field kw name get x x0 = (x = x0).
Proof. intros H. unfold opt_field. rewrite (get_none _ _ H). reflexivity. Qed.

Lemma trunc_fold kw : a_dict kw -> forall p0 p, fold_kwargs trunc_kwarg p0 kw = Ok p <->
  opt_field kw "stride" get_usize (tp_stride p) (tp_stride p0) /\ opt_field kw "strategy" get_strategy (tp_strategy p) (tp_strategy p0) /\
  opt_field kw "direction" get_direction (tp_direction p) (tp_direction p0) /\ tp_max_length p = tp_max_length p0.
Proof.
  unfold a_dict. induction kw as [|[k v] kw IH]; intros D p0 p.
  - cbn [fold_kwargs]. unfold opt_field, get_kw. cbn [find option_map]. split; [intros [= ->]; auto|]. destruct p, p0; cbn. intros (-> & -> & -> & ->). reflexivity.
  - cbn [map fst] in D. apply NoDup_cons_iff in D. destruct D as (D1 & D2). specialize (IH D2). cbn [fold_kwargs]. unfold trunc_kwarg at 1.
    destruct (has_key k "stride") eqn:E1.
    { apply key_eq in E1. subst k. rewrite opt_here, !opt_there by reflexivity. destruct (get_usize v) as [n| |]; cbn [bind]; [rewrite IH; cbn [tp_stride tp_strategy tp_direction tp_max_length]; rewrite (opt_gone kw "stride") by assumption; intuition congruence|split; [discriminate|intuition discriminate]..]. }
    destruct (has_key k "strategy") eqn:E2.
    { apply key_eq in E2. subst k. rewrite (opt_here _ _ _ "strategy"), !opt_there by reflexivity. destruct (get_strategy v) as [n| |]; cbn [bind]; [rewrite IH; cbn [tp_stride tp_strategy tp_direction tp_max_length]; rewrite (opt_gone kw "strategy") by assumption; intuition congruence|split; [discriminate|intuition discriminate]..]. }
    destruct (has_key k "direction") eqn:E3.
    { apply key_eq in E3. subst k. rewrite (opt_here _ _ _ "direction"), !opt_there by reflexivity. destruct (get_direction v) as [n| |]; cbn [bind]; [rewrite IH; cbn [tp_stride tp_strategy tp_direction tp_max_length]; rewrite (opt_gone kw "direction") by assumption; intuition congruence|split; [discriminate|intuition discriminate]..]. }
    cbn [bind]. rewrite IH, !opt_there by assumption. reflexivity.
Qed.

Definition as_strategy (n : option nat) : pad_strategy := match n with Some l => Fixed l | None => BatchLongest end.
Definition get_length (v : pyval) : res set_error pad_strategy := let! n := get_option get_usize v in Ok (as_strategy n).
Definition either {A} (x y : option A) : option A := match x with Some a => Some a | None => y end.
Definition mult_field (kw : kwargs) (m m0 : option nat) : Prop :=
  match get_kw kw "pad_to_multiple_of" with Some v => exists n, get_option get_usize v = Ok n /\ m = either n m0 | None => m = m0 end.
Definition len_field (kw : kwargs) (s s0 : pad_strategy) : Prop :=
  match get_kw kw "length" with Some v => get_length v = Ok s | None => opt_field kw "max_length" get_length s s0 end.

Lemma pad_fold kw : a_dict kw -> get_kw kw "length" = None \/ get_kw kw "max_length" = None -> forall p0 p, fold_kwargs pad_kwarg p0 kw = Ok p <->
  opt_field kw "direction" get_direction (pp_direction p) (pp_direction p0) /\ mult_field kw (pp_multiple p) (pp_multiple p0) /\
  opt_field kw "pad_id" get_u32 (pp_id p) (pp_id p0) /\ opt_field kw "pad_type_id" get_u32 (pp_type_id p) (pp_type_id p0) /\
  opt_field kw "pad_token" get_str (pp_token p) (pp_token p0) /\ len_field kw (pp_strategy p) (pp_strategy p0).
Proof.
  unfold a_dict. induction kw as [|[k v] kw IH]; intros D One p0 p.
  - cbn [fold_kwargs]. unfold opt_field, mult_field, len_field, opt_field, get_kw. cbn [find option_map]. split; [intros [= ->]; repeat split|]. destruct p, p0; cbn. intros (-> & -> & -> & -> & -> & ->). reflexivity.
  - cbn [map fst] in D. apply NoDup_cons_iff in D. destruct D as (D1 & D2).
    assert (get_kw kw "length" = None \/ get_kw kw "max_length" = None) as One'.
    { rewrite !get_cons in One. destruct One as [One | One]; [left; destruct (has_key k "length") | right; destruct (has_key k "max_length")]; congruence. }
    specialize (IH D2 One'). cbn [fold_kwargs]. unfold pad_kwarg at 1.
    assert (forall s s0, has_key k "length" = false -> has_key k "max_length" = false -> len_field ((k, v) :: kw) s s0 = len_field kw s s0) as Len.
    { intros s s0 F1 F2. unfold len_field. rewrite get_cons, F1, opt_there by assumption. reflexivity. }
    assert (forall m m0, has_key k "pad_to_multiple_of" = false -> mult_field ((k, v) :: kw) m m0 = mult_field kw m m0) as Mul.
    { intros m m0 F1. unfold mult_field. rewrite get_cons, F1. reflexivity. }
    destruct (has_key k "direction") eqn:E1.
    { apply key_eq in E1. subst k. rewrite (opt_here _ _ _ "direction"), !opt_there, Len, Mul by reflexivity. destruct (get_direction v) as [n| |]; cbn [bind]; [rewrite IH; cbn [pp_strategy pp_direction pp_multiple pp_id pp_type_id pp_token]; rewrite (opt_gone kw "direction") by assumption; intuition congruence|split; [discriminate|intuition discriminate]..]. }
    destruct (has_key k "pad_to_multiple_of") eqn:E2.
    { clear Mul. apply key_eq in E2. subst k. rewrite !opt_there, Len by reflexivity. unfold mult_field at 1. rewrite get_cons, (proj2 (key_eq _ _) eq_refl).
      destruct (get_option get_usize v) as [n| |] eqn:En; cbn [bind].
      - rewrite IH. unfold mult_field. rewrite (get_none kw "pad_to_multiple_of") by assumption.
        assert ((exists n0, @Ok set_error (option nat) n = Ok n0 /\ pp_multiple p = either n0 (pp_multiple p0)) <-> pp_multiple p = either n (pp_multiple p0)) as -> by (split; [intros (n0 & [= <-] & H); exact H|intros H; exists n; auto]).
        destruct n as [n|]; cbn [pp_strategy pp_direction pp_multiple pp_id pp_type_id pp_token either]; reflexivity.
      - split; [discriminate|]. intros (_ & (n & H & _) & _). discriminate.
      - split; [discriminate|]. intros (_ & (n & H & _) & _). discriminate. }
    destruct (has_key k "pad_id") eqn:E3.
    { apply key_eq in E3. subst k. rewrite (opt_here _ _ _ "pad_id"), !opt_there, Len, Mul by reflexivity. destruct (get_u32 v) as [n| |]; cbn [bind]; [rewrite IH; cbn [pp_strategy pp_direction pp_multiple pp_id pp_type_id pp_token]; rewrite (opt_gone kw "pad_id") by assumption; intuition congruence|split; [discriminate|intuition discriminate]..]. }
    destruct (has_key k "pad_type_id") eqn:E4.
    { apply key_eq in E4. subst k. rewrite (opt_here _ _ _ "pad_type_id"), !opt_there, Len, Mul by reflexivity. destruct (get_u32 v) as [n| |]; cbn [bind]; [rewrite IH; cbn [pp_strategy pp_direction pp_multiple pp_id pp_type_id pp_token]; rewrite (opt_gone kw "pad_type_id") by assumption; intuition congruence|split; [discriminate|intuition discriminate]..]. }
    destruct (has_key k "pad_token") eqn:E5.
    { apply key_eq in E5. subst k. rewrite (opt_here _ _ _ "pad_token"), !opt_there, Len, Mul by reflexivity. destruct (get_str v) as [n| |]; cbn [bind]; [rewrite IH; cbn [pp_strategy pp_direction pp_multiple pp_id pp_type_id pp_token]; rewrite (opt_gone kw "pad_token") by assumption; intuition congruence|split; [discriminate|intuition discriminate]..]. }
    destruct (has_key k "max_length") eqn:E6; [|destruct (has_key k "length") eqn:E7]; cbn [orb].
    + clear Len. apply key_eq in E6. subst k. rewrite !get_cons in One. cbn in One. destruct One as [One | One]; [|discriminate].
      rewrite !opt_there, Mul by reflexivity. unfold len_field at 1. rewrite get_cons. change (has_key (text_of "max_length") "length") with false. cbn iota. rewrite One, opt_here by reflexivity. unfold get_length.
      destruct (get_option get_usize v) as [n| |]; cbn [bind]; [|split; [discriminate|intuition discriminate]..].
      rewrite IH. unfold len_field. rewrite One, (opt_gone kw "max_length") by assumption. cbn [pp_strategy pp_direction pp_multiple pp_id pp_type_id pp_token]. fold (as_strategy n). intuition congruence.
    + clear Len. apply key_eq in E7. subst k. rewrite !get_cons in One. cbn in One. destruct One as [One | One]; [discriminate|].
      rewrite !opt_there, Mul by reflexivity. unfold len_field at 1. rewrite get_cons. change (has_key (text_of "length") "length") with true. cbn iota. unfold get_length.
      destruct (get_option get_usize v) as [n| |]; cbn [bind]; [|split; [discriminate|intuition discriminate]..].
      rewrite IH. unfold len_field, opt_field. rewrite One, (get_none kw "length") by assumption. cbn [pp_strategy pp_direction pp_multiple pp_id pp_type_id pp_token]. fold (as_strategy n). intuition congruence.
    + cbn [bind]. rewrite IH. rewrite !opt_there by assumption. rewrite Mul by reflexivity. rewrite Len by reflexivity. reflexivity.
Qed.

Lemma get_length_ok v s : get_length v = Ok s <-> length_is s v.
Proof.
  unfold get_length, get_option, length_is, as_strategy. destruct s as [|n].
  - split; [|intros ->; reflexivity]. destruct v; cbn [bind]; try reflexivity; destruct (get_usize _); discriminate.
  - rewrite <- get_usize_ok. destruct v; cbn [bind]; try (split; discriminate); destruct (get_usize _); cbn [bind]; split; congruence.
Qed.
Lemma get_multiple_ok v m : (exists n, get_option get_usize v = Ok n /\ m = either n None) <-> multiple_is m v.
Proof.
  assert ((exists n, get_option get_usize v = Ok n /\ m = either n None) <-> get_option get_usize v = Ok m) as ->.
  { split; [intros (n & H & ->); destruct n; assumption|intros H; exists m; split; [assumption|destruct m; reflexivity]]. }
  unfold get_option, multiple_is. destruct m as [n|].
  - rewrite <- get_usize_ok. destruct v; cbn [bind]; try (split; discriminate); destruct (get_usize _); cbn [bind]; split; congruence.
  - split; [|intros ->; reflexivity]. destruct v; cbn [bind]; try reflexivity; destruct (get_usize _); discriminate.
Qed.

Lemma token_fold state kw : a_dict kw -> forall t0 t, fold_kwargs (token_kwarg state) t0 kw = Ok t <->
  (if state then opt_field kw "content" get_str (pt_content t) (pt_content t0) else pt_content t = pt_content t0) /\
  opt_field kw "special" get_bool (pt_special t) (pt_special t0) /\
  opt_field kw "single_word" (fun v => let! b := get_bool v in Ok (Some b)) (pt_single_word t) (pt_single_word t0) /\
  opt_field kw "lstrip" (fun v => let! b := get_bool v in Ok (Some b)) (pt_lstrip t) (pt_lstrip t0) /\
  opt_field kw "rstrip" (fun v => let! b := get_bool v in Ok (Some b)) (pt_rstrip t) (pt_rstrip t0) /\
  opt_field kw "normalized" (fun v => let! b := get_bool v in Ok (Some b)) (pt_normalized t) (pt_normalized t0).
Proof.
  unfold a_dict. induction kw as [|[k v] kw IH]; intros D t0 t.
  - cbn [fold_kwargs]. unfold opt_field, get_kw. cbn [find option_map]. split; [intros [= ->]; destruct state; repeat split|]. destruct t, t0; cbn. destruct state; intros (-> & -> & -> & -> & -> & ->); reflexivity.
  - cbn [map fst] in D. apply NoDup_cons_iff in D. destruct D as (D1 & D2). specialize (IH D2). cbn [fold_kwargs]. unfold token_kwarg at 1.
    destruct (state && has_key k "content") eqn:E0.
    { apply andb_true_iff in E0. destruct E0 as (-> & E0). apply key_eq in E0. subst k. rewrite (opt_here _ _ _ "content"), !opt_there by reflexivity.
      destruct (get_str v) as [n| |]; cbn [bind]; [rewrite IH; cbn [pt_content pt_special pt_single_word pt_lstrip pt_rstrip pt_normalized]; rewrite (opt_gone kw "content") by assumption; intuition congruence|split; [discriminate|intuition discriminate]..]. }
    assert (forall x x0, (if state then opt_field ((k, v) :: kw) "content" get_str x x0 else x = x0) = (if state then opt_field kw "content" get_str x x0 else x = x0)) as -> by (intros; destruct state; [apply opt_there; exact E0|reflexivity]).
    destruct (has_key k "single_word") eqn:E1.
    { apply key_eq in E1. subst k. rewrite (opt_here _ _ _ "single_word"), !opt_there by reflexivity.
      destruct (get_bool v) as [n| |]; cbn [bind]; [rewrite IH; cbn [pt_content pt_special pt_single_word pt_lstrip pt_rstrip pt_normalized]; rewrite (opt_gone kw "single_word") by assumption; intuition congruence|split; [discriminate|intuition discriminate]..]. }
    destruct (has_key k "lstrip") eqn:E2.
    { apply key_eq in E2. subst k. rewrite (opt_here _ _ _ "lstrip"), !opt_there by reflexivity.
      destruct (get_bool v) as [n| |]; cbn [bind]; [rewrite IH; cbn [pt_content pt_special pt_single_word pt_lstrip pt_rstrip pt_normalized]; rewrite (opt_gone kw "lstrip") by assumption; intuition congruence|split; [discriminate|intuition discriminate]..]. }
    destruct (has_key k "rstrip") eqn:E3.
    { apply key_eq in E3. subst k. rewrite (opt_here _ _ _ "rstrip"), !opt_there by reflexivity.
      destruct (get_bool v) as [n| |]; cbn [bind]; [rewrite IH; cbn [pt_content pt_special pt_single_word pt_lstrip pt_rstrip pt_normalized]; rewrite (opt_gone kw "rstrip") by assumption; intuition congruence|split; [discriminate|intuition discriminate]..]. }
    destruct (has_key k "normalized") eqn:E4.
    { apply key_eq in E4. subst k. rewrite (opt_here _ _ _ "normalized"), !opt_there by reflexivity.
      destruct (get_bool v) as [n| |]; cbn [bind]; [rewrite IH; cbn [pt_content pt_special pt_single_word pt_lstrip pt_rstrip pt_normalized]; rewrite (opt_gone kw "normalized") by assumption; intuition congruence|split; [discriminate|intuition discriminate]..]. }
    destruct (has_key k "special") eqn:E5.
    { apply key_eq in E5. subst k. rewrite (opt_here _ _ _ "special"), !opt_there by reflexivity.
      destruct (get_bool v) as [n| |]; cbn [bind]; [rewrite IH; cbn [pt_content pt_special pt_single_word pt_lstrip pt_rstrip pt_normalized]; rewrite (opt_gone kw "special") by assumption; intuition congruence|split; [discriminate|intuition discriminate]..]. }
    cbn [bind]. rewrite IH, !opt_there by assumption. reflexivity.
Qed.
