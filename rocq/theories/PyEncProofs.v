(** Proofs for C103. *)
From Coq Require Import ZArith String Ascii DecimalString Permutation.
From Verif Require Import Base StrBytes ListFacts AMap EncodingModel EncodingSpec EncodingProofs EncodingProofs2 EncodingProofs3 ModelFilesModel ComponentFilesModel VisualModel PyReprReadProofs PyModelModel PyModelSpec PyModelProofs PyEncModel PyEncSpec.

(** ** Arguments *)
Section arguments.
  Context {W : Type}.

  Lemma u32_read (a : arg W) n : arg_u32 a = Ok n <-> is_u32 a n.
  Proof.
    unfold is_u32, is_number. destruct a as [|b|z|w|s|]; cbn [arg_u32]; try (split; [discriminate|intros [[[E _]|[[E _]|[E _]]] _]; discriminate]).
    - destruct b; (split; [intros E; injection E as <-; split; [auto|lia]|intros [[[E _]|[[E X]|[E X]]] _]; try discriminate; rewrite X; reflexivity]).
    - destruct (Z.leb 0 z && Z.ltb z (2 ^ 32)) eqn:E.
      + apply andb_true_iff in E. destruct E as [E1 E2]. apply Z.leb_le in E1. apply Z.ltb_lt in E2. split.
        * intros X. injection X as <-. split; [left; split; [f_equal; lia|]|]; lia.
        * intros [[[X L]|[[X _]|[X _]]] _]; try discriminate. injection X as ->. f_equal. lia.
      + split; [discriminate|]. intros [[[X L]|[[X _]|[X _]]] L']; try discriminate. injection X as ->. apply andb_false_iff in E. destruct E as [E|E]; [apply Z.leb_gt in E|apply Z.ltb_ge in E]; lia.
  Qed.

  Lemma position_read (a : arg W) n : arg_nat a = Ok n <-> is_position a n.
  Proof.
    unfold arg_nat, is_position. rewrite bind_ok. split.
    - intros (x & R & ->). apply number_read in R. rewrite N2Nat.id. exact R.
    - intros R. exists (N.of_nat n). split; [apply number_read; exact R|]. rewrite Nat2N.id. reflexivity.
  Qed.

  Lemma side_read (a : arg W) d : arg_side a = Ok d <-> is_side a d.
  Proof.
    unfold arg_side, is_side. destruct a as [|b|z|w|s|]; cbn [arg_str bind]; try (split; [discriminate|intros [[E _]|[E _]]; discriminate]).
    destruct (str_eqb s (key "left")) eqn:E1; [apply str_eqb_eq in E1; subst s|].
    { split; [intros E; injection E as <-; auto|]. intros [[_ ->]|[E _]]; [reflexivity|]. discriminate E. }
    destruct (str_eqb s (key "right")) eqn:E2; [apply str_eqb_eq in E2; subst s|].
    { split; [intros E; injection E as <-; auto|]. intros [[E _]|[_ ->]]; [|reflexivity]. discriminate E. }
    split; [discriminate|]. intros [[E _]|[E _]]; injection E as ->; rewrite str_eqb_refl in *; discriminate.
  Qed.

  Lemma or_read {T} (read : arg W -> res pm_error T) (means : arg W -> T -> Prop) d a v :
    (forall a v, read a = Ok v <-> means a v) -> (arg_or read d a = Ok v <-> default_or means d a v).
  Proof.
    intros H. destruct a as [a|]; cbn [arg_or default_or]; [apply H|]. split; [intros E; injection E as ->; reflexivity|intros ->; reflexivity].
  Qed.

  Definition pad_says (kw : list (str * arg W)) (c c' : pad_args) : Prop :=
    kw_says is_side kw "direction" (pa_side c) (pa_side c') /\
    kw_says is_u32 kw "pad_id" (pa_id c) (pa_id c') /\
    kw_says is_u32 kw "pad_type_id" (pa_type c) (pa_type c') /\
    kw_says is_text kw "pad_token" (pa_token c) (pa_token c').

  Lemma pad_kwarg_says c k (a : arg W) c' : pad_kwarg c (k, a) = Ok c' <-> pad_says [(k, a)] c c'.
  Proof.
    unfold pad_says. rewrite !says_one. destruct c as [d i t x]. destruct c' as [d' i' t' x']. unfold pad_kwarg. cbn [pa_side pa_id pa_type pa_token].
    destruct (str_eqb k (key "direction")) eqn:E1; [apply str_eqb_eq in E1; subst k; test_keys; cbv iota; rewrite bind_ok|].
    { split; [intros (y & R & E); injection E as -> -> -> ->; apply side_read in R; auto|intros (R & -> & -> & ->); exists d'; split; [apply side_read; exact R|reflexivity]]. }
    destruct (str_eqb k (key "pad_id")) eqn:E2; [apply str_eqb_eq in E2; subst k; test_keys; cbv iota; rewrite bind_ok|].
    { split; [intros (y & R & E); injection E as -> -> -> ->; apply u32_read in R; auto|intros (-> & R & -> & ->); exists i'; split; [apply u32_read; exact R|reflexivity]]. }
    destruct (str_eqb k (key "pad_type_id")) eqn:E3; [apply str_eqb_eq in E3; subst k; test_keys; cbv iota; rewrite bind_ok|].
    { split; [intros (y & R & E); injection E as -> -> -> ->; apply u32_read in R; auto|intros (-> & -> & R & ->); exists t'; split; [apply u32_read; exact R|reflexivity]]. }
    destruct (str_eqb k (key "pad_token")) eqn:E4; [apply str_eqb_eq in E4; subst k; test_keys; cbv iota; rewrite bind_ok|].
    { split; [intros (y & R & E); injection E as -> -> -> ->; apply text_read in R; auto|intros (-> & -> & -> & R); exists x'; split; [apply text_read; exact R|reflexivity]]. }
    split; [intros E; injection E as -> -> -> ->; auto|intros (-> & -> & -> & ->); reflexivity].
  Qed.

  Lemma pad_kwargs_say (kw : list (str * arg W)) : NoDup (map fst kw) -> forall c c', each_kwarg pad_kwarg c kw = Ok c' <-> pad_says kw c c'.
  Proof.
    induction kw as [|[k a] kw IH]; intros ND c c'; cbn [each_kwarg].
    - unfold pad_says. rewrite !says_nil. destruct c, c'; cbn. split; [intros E; injection E as -> -> -> ->; auto|intros (-> & -> & -> & ->); reflexivity].
    - inversion ND as [|? ? NI ND']; subst. transitivity (exists c1, pad_kwarg c (k, a) = Ok c1 /\ each_kwarg pad_kwarg c1 kw = Ok c').
      { destruct (pad_kwarg c (k, a)) as [c1|e|]; cbn [bind]; split; try discriminate; try (intros (? & ? & _); discriminate); [eauto|]. intros (c2 & E & H). injection E as ->. exact H. }
      unfold pad_says. rewrite !(says_split _ k a kw) by exact NI. split.
      + intros (c1 & H1 & H2). apply pad_kwarg_says in H1. apply (IH ND') in H2. unfold pad_says in *.
        destruct H1 as (A1 & A2 & A3 & A4). destruct H2 as (B1 & B2 & B3 & B4). repeat split; eauto.
      + intros ((x1 & A1 & B1) & (x2 & A2 & B2) & (x3 & A3 & B3) & (x4 & A4 & B4)). exists (mkPA x1 x2 x3 x4). split; [apply pad_kwarg_says|apply (IH ND')]; (split; [|split; [|split]]; assumption).
  Qed.

  (** The kind of an error of the keyword arguments. *)
  Lemma pad_kwargs_fail (kw : list (str * arg W)) : forall c e, each_kwarg pad_kwarg c kw = Err e ->
    e = PType \/ (e = PValue /\ exists s, In (key "direction", AStr s) kw /\ s <> key "left" /\ s <> key "right").
  Proof.
    induction kw as [|[k a] kw IH]; intros c e; cbn [each_kwarg]; [discriminate|].
    destruct (pad_kwarg c (k, a)) as [c1|e1|] eqn:E1; cbn [bind].
    - intros H. destruct (IH _ _ H) as [X|(X & s & I1 & I2)]; [auto|right; split; [exact X|exists s; split; [right; exact I1|exact I2]]].
    - intros H. injection H as ->. destruct c as [d i t x]. unfold pad_kwarg in E1.
      destruct (str_eqb k (key "direction")) eqn:K1.
      + apply str_eqb_eq in K1. subst k. unfold arg_side in E1. destruct a as [|b|z|w|s|]; cbn [arg_str bind] in E1; try (injection E1 as <-; auto).
        destruct (str_eqb s (key "left")) eqn:L1; [discriminate|]. destruct (str_eqb s (key "right")) eqn:L2; [discriminate|]. cbn [bind] in E1. injection E1 as <-. right. split; [reflexivity|]. exists s.
        split; [left; reflexivity|]. split; intros ->; rewrite str_eqb_refl in *; discriminate.
      + left.
        assert (U : forall x : arg W, match arg_u32 x with Err e => e = PType | Panic => False | Ok _ => True end) by (intros [|b'|z'|w'|s'|]; cbn [arg_u32]; auto; destruct (Z.leb 0 z' && Z.ltb z' (2 ^ 32)); auto).
        destruct (str_eqb k (key "pad_id")); [specialize (U a); destruct (arg_u32 a); cbn [bind] in E1; [discriminate|congruence|destruct U]|].
        destruct (str_eqb k (key "pad_type_id")); [specialize (U a); destruct (arg_u32 a); cbn [bind] in E1; [discriminate|congruence|destruct U]|].
        destruct (str_eqb k (key "pad_token")); [|discriminate]. destruct a; cbn [arg_str bind] in E1; congruence.
    - discriminate.
  Qed.

  Lemma pad_kwargs_panic (kw : list (str * arg W)) : forall c, each_kwarg (@pad_kwarg W) c kw <> Panic.
  Proof.
    induction kw as [|[k a] kw IH]; intros c; cbn [each_kwarg]; [discriminate|].
    destruct (pad_kwarg c (k, a)) as [c1|e1|] eqn:E1; cbn [bind]; [apply IH|discriminate|]. exfalso. destruct c as [d i t x]. unfold pad_kwarg in E1.
    assert (U : forall x : arg W, arg_u32 x <> Panic) by (intros [|b'|z'|w'|s'|]; cbn [arg_u32]; try discriminate; destruct (Z.leb 0 z' && Z.ltb z' (2 ^ 32)); discriminate).
    destruct (str_eqb k (key "direction")).
    { destruct a as [|b|z|w|s|]; cbn [arg_side arg_str bind] in E1; try discriminate. unfold arg_side in E1. cbn [arg_str bind] in E1. destruct (str_eqb s (key "left")), (str_eqb s (key "right")); discriminate. }
    destruct (str_eqb k (key "pad_id")); [specialize (U a); destruct (arg_u32 a); cbn [bind] in E1; congruence|].
    destruct (str_eqb k (key "pad_type_id")); [specialize (U a); destruct (arg_u32 a); cbn [bind] in E1; congruence|].
    destruct (str_eqb k (key "pad_token")); [|discriminate]. destruct a; cbn [arg_str bind] in E1; discriminate.
  Qed.
End arguments.

(** ** Keys *)
Lemma key_back n : (N.of_nat n < 2 ^ 64)%N -> read_key (decimal (N.of_nat n)) = Ok n.
Proof.
  intros H. unfold read_key. assert (E : string_of_list_ascii (map ascii_of_N (decimal (N.of_nat n))) = NilZero.string_of_uint (N.to_uint (N.of_nat n))).
  { unfold decimal, lit. rewrite map_map. rewrite (map_ext _ (fun x => x)) by (intros x; apply ascii_N_embedding). rewrite map_id. apply string_of_list_ascii_of_string. }
  rewrite E, NilZero.usu by (destruct (N.of_nat n) as [|p]; [discriminate|]; cbn; apply DecimalPos.Unsigned.to_uint_nonnil).
  rewrite DecimalN.Unsigned.of_to, str_eqb_refl. apply N.ltb_lt in H. rewrite H. cbn [andb]. rewrite Nat2N.id. reflexivity.
Qed.

Section pickles.
  Context {W : Type}.

  (** ** How deep *)
  Lemma max_all l k : list_max l <= k <-> Forall (fun x => x <= k) l.
  Proof. apply list_max_le. Qed.
  Lemma max_in l x : In x l -> x <= list_max l.
  Proof. intros H. pose proof (proj1 (max_all l (list_max l)) (le_n _)) as F. rewrite Forall_forall in F. auto. Qed.

  Lemma flat_depth {A} (f : A -> json W) k l : (forall x, json_depth (f x) <= k) -> 1 <= json_depth (JArr (map f l)) <= S k.
  Proof.
    intros H. cbn [json_depth]. split; [lia|]. apply le_n_S. apply max_all. apply Forall_forall. intros x Hx. rewrite map_map in Hx. apply in_map_iff in Hx. destruct Hx as (y & <- & _). apply H.
  Qed.
  Lemma ranges_depth m : 1 <= json_depth (of_ranges (W:=W) m) <= 2.
  Proof.
    unfold of_ranges. cbn [json_depth]. split; [lia|]. apply le_n_S. apply max_all. apply Forall_forall. intros x Hx. rewrite map_map in Hx. apply in_map_iff in Hx. destruct Hx as (y & <- & _). cbn. lia.
  Qed.
  Lemma to_json_eq e : enc_to_json (W:=W) e = JObj [
      (key "ids", of_u32s (ids e)); (key "type_ids", of_u32s (type_ids e)); (key "tokens", JArr (map JStr (tokens e)));
      (key "words", JArr (map of_word (words e))); (key "offsets", JArr (map of_offsets (offsets e)));
      (key "special_tokens_mask", of_u32s (special_tokens_mask e)); (key "attention_mask", of_u32s (attention_mask e));
      (key "overflowing", JArr (map enc_to_json (overflowing e))); (key "sequence_ranges", of_ranges (sequence_ranges e))].
  Proof. destruct e; reflexivity. Qed.
  Lemma nesting_eq e : nesting e = list_max (map (fun o => S (nesting o)) (overflowing e)).
  Proof. destruct e; reflexivity. Qed.

  Lemma max_max {A} (f g : A -> nat) l : Forall (fun x => 2 * g x + 2 <= f x <= 2 * g x + 3) l ->
    2 * list_max (map (fun x => S (g x)) l) <= list_max (map f l) <= 2 * list_max (map (fun x => S (g x)) l) + 1.
  Proof. induction 1 as [|x l H _ IH]; cbn [map list_max fold_right]; [cbn; lia|]. unfold list_max in *. cbn [fold_right]. lia. Qed.

  Lemma pickle_depth e : 2 * nesting e + 2 <= json_depth (enc_to_json (W:=W) e) <= 2 * nesting e + 3.
  Proof.
    induction e as [e IH] using enc_ind'. rewrite to_json_eq, nesting_eq. cbn [json_depth map snd].
    assert (D1 : forall l, 1 <= json_depth (of_u32s (W:=W) l) <= 1) by (intros l; apply (flat_depth JInt 0); intros x; apply le_n).
    pose proof (flat_depth JStr 0 (tokens e) (fun _ => le_n _)) as D2.
    assert (D3 : 1 <= json_depth (JArr (map (of_word (W:=W)) (words e))) <= 1) by (apply flat_depth; intros [x|]; apply le_n).
    assert (D4 : 1 <= json_depth (JArr (map (of_offsets (W:=W)) (offsets e))) <= 2) by (apply flat_depth; intros x; cbn; lia).
    pose proof (ranges_depth (sequence_ranges e)) as D5.
    pose proof (max_max (fun o => json_depth (enc_to_json (W:=W) o)) nesting _ IH) as D6.
    pose proof (D1 (ids e)). pose proof (D1 (type_ids e)). pose proof (D1 (special_tokens_mask e)). pose proof (D1 (attention_mask e)).
    cbn [json_depth] in D2, D3, D4. rewrite <- (map_map enc_to_json json_depth) in D6. unfold list_max in *. cbn [fold_right]. lia.
  Qed.

  Lemma depth_ok e : (json_depth (enc_to_json (W:=W) e) <? recursion_limit) = true <-> nesting e <= 62.
  Proof. pose proof (pickle_depth e). rewrite Nat.ltb_lt. unfold recursion_limit. lia. Qed.

  (** ** Reading back *)
  Lemma vec_back {A} (f : A -> json W) (read : json W -> res file_error A) l : Forall (fun x => read (f x) = Ok x) l -> as_vec read (JArr (map f l)) = Ok l.
  Proof. intros H. cbn [as_vec]. induction H as [|x l E _ IH]; [reflexivity|]. cbn [map map_res]. rewrite E. cbn [bind]. rewrite IH. reflexivity. Qed.
  Lemma u32s_back l : Forall (fun n => n < 2 ^ 32)%N l -> as_vec as_u32 (of_u32s (W:=W) l) = Ok l.
  Proof. intros H. apply vec_back. eapply Forall_impl; [|exact H]. intros n L. cbv beta in L. apply N.ltb_lt in L. cbn [as_u32]. rewrite L. reflexivity. Qed.
  Lemma nat_back n : (N.of_nat n < 2 ^ 64)%N -> as_nat (of_nat (W:=W) n) = Ok n.
  Proof. intros L. apply N.ltb_lt in L. unfold as_nat, of_nat. cbn [as_usize]. rewrite L. cbn [bind]. rewrite Nat2N.id. reflexivity. Qed.

  Lemma range_back r : (N.of_nat (fst r) < 2 ^ 64 -> N.of_nat (snd r) < 2 ^ 64 -> as_range (of_range (W:=W) r) = Ok r)%N.
  Proof.
    intros L1 L2. destruct r as [a b]. unfold of_range, as_range. cbn [forallb fst snd] in *. test_keys. cbn [orb andb]. unfold need, field. cbn [filter fst]. test_keys. cbn [bind snd]. rewrite (nat_back a), (nat_back b) by assumption. reflexivity.
  Qed.

  Lemma ranges_back m : Forall (fun kr => N.of_nat (fst kr) < 2 ^ 64 /\ N.of_nat (fst (snd kr)) < 2 ^ 64 /\ N.of_nat (snd (snd kr)) < 2 ^ 64)%N m ->
    forall acc, NoDup (map fst (acc ++ m)) -> into_ranges (W:=W) (map (fun kr => (decimal (N.of_nat (fst kr)), of_range (snd kr))) m) acc = Ok (acc ++ m).
  Proof.
    induction 1 as [|[k r] m (L1 & L2 & L3) _ IH]; intros acc ND; cbn [map into_ranges fst snd] in *; [rewrite app_nil_r; reflexivity|].
    rewrite key_back by exact L1. cbn [bind]. rewrite range_back by assumption. cbn [bind].
    rewrite ranges_insert_fresh.
    - rewrite IH by (rewrite <- app_assoc; exact ND). rewrite <- app_assoc. reflexivity.
    - rewrite map_app in ND. cbn [map fst] in ND. apply NoDup_remove_2 in ND. intros X. apply ND. apply in_or_app. left. exact X.
  Qed.

  Context (order : list (nat * (nat * nat)) -> list (nat * (nat * nat))) (HO : forall m, Permutation (order m) m).

  Lemma as_ranges_back m : Forall (fun kr => N.of_nat (fst kr) < 2 ^ 64 /\ N.of_nat (fst (snd kr)) < 2 ^ 64 /\ N.of_nat (snd (snd kr)) < 2 ^ 64)%N m ->
    NoDup (map fst m) -> as_ranges order (of_ranges (W:=W) m) = Ok (order m).
  Proof. intros F ND. unfold as_ranges, of_ranges. rewrite (ranges_back m F []) by exact ND. reflexivity. Qed.

  Lemma read_eq fuel e : enc_of_json order (S fuel) (enc_to_json (W:=W) e) =
    (let! i := as_vec as_u32 (of_u32s (W:=W) (ids e)) in
     let! ty := as_vec as_u32 (of_u32s (W:=W) (type_ids e)) in
     let! tk := as_vec as_str (JArr (map (@JStr W) (tokens e))) in
     let! w := as_vec (as_option as_u32) (JArr (map (of_word (W:=W)) (words e))) in
     let! o := as_vec (as_pair as_nat as_nat) (JArr (map (of_offsets (W:=W)) (offsets e))) in
     let! sm := as_vec as_u32 (of_u32s (W:=W) (special_tokens_mask e)) in
     let! am := as_vec as_u32 (of_u32s (W:=W) (attention_mask e)) in
     let! ov := as_vec (enc_of_json order fuel) (JArr (map (enc_to_json (W:=W)) (overflowing e))) in
     let! ra := as_ranges order (of_ranges (W:=W) (sequence_ranges e)) in
     Ok (mkEnc i ty tk w o sm am ov ra)).
  Proof.
    rewrite to_json_eq. cbn [enc_of_json]. unfold need, field.
    generalize (of_u32s (W:=W) (ids e)) (of_u32s (W:=W) (type_ids e)) (JArr (map (@JStr W) (tokens e))) (JArr (map (of_word (W:=W)) (words e))) (JArr (map (of_offsets (W:=W)) (offsets e)))
      (of_u32s (W:=W) (special_tokens_mask e)) (of_u32s (W:=W) (attention_mask e)) (JArr (map (enc_to_json (W:=W)) (overflowing e))) (of_ranges (W:=W) (sequence_ranges e)).
    intros v1 v2 v3 v4 v5 v6 v7 v8 v9. cbn [filter fst]. test_keys. cbv iota. cbn [bind snd]. reflexivity.
  Qed.

  Lemma enc_back e : fits e -> one_range e -> forall fuel, nesting e < fuel ->
    exists e', enc_of_json order fuel (enc_to_json (W:=W) e) = Ok e' /\ same_enc e e'.
  Proof using HO.
    induction e as [e IH] using enc_ind'. intros [F1 F2 F3 F4 F5 F6 F7 F8] [O1 O2] [|fuel] L; [lia|].
    assert (OV : exists ov, as_vec (enc_of_json order fuel) (JArr (map (enc_to_json (W:=W)) (overflowing e))) = Ok ov /\ Forall2 same_enc (overflowing e) ov).
    { cbn [as_vec]. rewrite nesting_eq in L. revert IH F8 O2 L. clear. induction (overflowing e) as [|x l IHl]; intros IH F8 O2 L; [exists []; split; [reflexivity|constructor]|].
      inversion IH as [|? ? I1 I2]; inversion F8 as [|? ? G1 G2]; inversion O2 as [|? ? P1 P2]; subst. cbn [map] in L. unfold list_max in *. cbn [fold_right] in L.
      destruct (I1 G1 P1 fuel ltac:(lia)) as (x' & R & S1). destruct (IHl I2 G2 P2 ltac:(lia)) as (l' & R' & S2).
      exists (x' :: l'). cbn [map map_res]. rewrite R. cbn [bind]. rewrite R'. split; [reflexivity|constructor; assumption]. }
    destruct OV as (ov & OV & SO).
    eexists. rewrite read_eq. rewrite !u32s_back by assumption. cbn [bind].
    rewrite (vec_back JStr) by (apply Forall_forall; reflexivity). cbn [bind].
    rewrite (vec_back of_word (as_option as_u32)).
    2:{ eapply Forall_impl; [|exact F3]. intros [n|] H; [|reflexivity]. specialize (H n eq_refl). apply N.ltb_lt in H. cbn [of_word as_option as_u32]. rewrite H. reflexivity. }
    cbn [bind]. rewrite (vec_back of_offsets (as_pair as_nat as_nat)).
    2:{ eapply Forall_impl; [|exact F4]. intros [a b] [H1 H2]. cbn [fst snd] in *. unfold of_offsets. cbn [as_pair fst snd]. rewrite !nat_back by assumption. reflexivity. }
    cbn [bind]. rewrite OV. cbn [bind]. rewrite as_ranges_back by assumption. cbn [bind].
    split; [reflexivity|]. constructor; cbn; auto.
  Qed.

  Lemma vec_length {A} (f : A -> json W) (read : json W -> res file_error A) l l' : as_vec read (JArr (map f l)) = Ok l' -> length l' = length l.
  Proof.
    cbn [as_vec]. revert l'. induction l as [|x l IH]; intros l' H; cbn [map map_res] in H; [injection H as <-; reflexivity|].
    destruct (read (f x)) as [y|?|]; cbn [bind] in H; try discriminate. destruct (map_res read (map f l)) as [l2|?|]; cbn [bind] in H; try discriminate. injection H as <-. cbn. f_equal. apply IH. reflexivity.
  Qed.

  Ltac step H := match type of H with (let! _ := ?r in _) = _ => let E := fresh "R" in destruct r eqn:E; cbn [bind] in H; [|discriminate H|discriminate H] end.

  Lemma read_parallel e : forall fuel e', enc_of_json order fuel (enc_to_json (W:=W) e) = Ok e' -> parallel e -> parallel e'.
  Proof.
    induction e as [e IH] using enc_ind'. intros [|fuel] e' H P; [discriminate|]. rewrite read_eq in H.
    step H. step H. step H. step H. step H. step H. step H. step H. step H. injection H as <-.
    destruct P as [(L1 & L2 & L3 & L4 & L5 & L6) PO]. unfold of_u32s in *. unfold enc_len in *.
    apply vec_length in R, R0, R1, R2, R3, R4, R5.
    constructor; [unfold same_lengths, enc_len; cbn; repeat split; congruence|]. cbn [overflowing].
    match goal with E : as_vec _ (JArr (map enc_to_json _)) = Ok ?l |- _ => cbn [as_vec] in E; revert E; generalize l end. revert IH PO. clear. induction (overflowing e) as [|x l IHl]; intros IH PO l' E; cbn [map map_res] in E; [injection E as <-; constructor|].
    inversion IH as [|? ? I1 I2]; inversion PO as [|? ? P1 P2]; subst.
    step E. step E. injection E as <-. constructor; [eapply I1; eassumption|]. apply IHl; auto.
  Qed.

  Lemma insert_keys k r m : NoDup (map fst m) -> NoDup (map fst (ranges_insert k r m)).
  Proof.
    assert (I : forall m x, In x (map fst (ranges_insert k r m)) -> x = k \/ In x (map fst m)).
    { clear m. induction m as [|[k' r'] m IH]; cbn [ranges_insert map fst In]; intros x H; [destruct H as [<-|[]]; auto|].
      destruct (Nat.eqb_spec k k') as [->|D]; cbn [map fst In] in H; [tauto|]. destruct H as [H|H]; [auto|]. apply IH in H. tauto. }
    induction m as [|[k' r'] m IH]; cbn [ranges_insert map fst]; intros ND; [constructor; [intros []|constructor]|].
    inversion ND as [|? ? N1 N2]; subst. destruct (Nat.eqb_spec k k') as [->|D]; cbn [map fst]; constructor; auto. intros X. apply I in X. destruct X as [X|X]; [congruence|tauto].
  Qed.
  Lemma into_keys l : forall m m', into_ranges (W:=W) l m = Ok m' -> NoDup (map fst m) -> NoDup (map fst m').
  Proof.
    induction l as [|[k v] l IH]; intros m m' H ND; cbn [into_ranges] in H; [injection H as <-; exact ND|].
    step H. step H. eapply IH; [exact H|]. apply insert_keys. exact ND.
  Qed.

  Lemma need_read {T} k (read : json W -> res file_error T) l x : need k read l = Ok x -> exists j, read j = Ok x.
  Proof. unfold need. destruct (field k l) as [[j|]|?|]; cbn [bind]; try discriminate. eauto. Qed.

  Lemma read_one_range : forall fuel j e, enc_of_json (W:=W) order fuel j = Ok e -> one_range e.
  Proof using HO.
    induction fuel as [|fuel IH]; intros j e H; [discriminate|]. cbn [enc_of_json] in H. destruct j as [| | | | | |l]; try discriminate.
    step H. step H. step H. step H. step H. step H. step H. step H. step H. injection H as <-.
    apply need_read in R6, R7. destruct R7 as (jr & ER). destruct R6 as (jo & EO). unfold as_ranges in ER.
    constructor; cbn [sequence_ranges overflowing].
    - destruct jr; try discriminate. step ER. injection ER as <-. eapply Permutation_NoDup; [apply Permutation_map; symmetry; apply HO|]. eapply into_keys; [eassumption|constructor].
    - destruct jo as [| | | | |lo|]; try discriminate. cbn [as_vec] in EO. revert EO. match goal with |- map_res _ _ = Ok ?x -> _ => generalize x end. clear -IH.
      induction lo as [|y lo IHl]; intros l' E; cbn [map_res] in E; [injection E as <-; constructor|]. step E. step E. injection E as <-. constructor; eauto.
  Qed.

  (** ** The same encoding answers the same *)
  Lemma same_ranges e e' s : NoDup (map fst (sequence_ranges e)) -> Permutation (sequence_ranges e') (sequence_ranges e) ->
    ranges_get s (sequence_ranges e') = ranges_get s (sequence_ranges e).
  Proof.
    intros ND P. assert (ND' : NoDup (map fst (sequence_ranges e'))) by (eapply Permutation_NoDup; [apply Permutation_map; symmetry; exact P|exact ND]).
    destruct (ranges_get s (sequence_ranges e)) as [r|] eqn:E.
    - apply ranges_get_in in E; [|exact ND]. apply ranges_get_in; [exact ND'|]. eapply Permutation_in; [symmetry; exact P|exact E].
    - destruct (ranges_get s (sequence_ranges e')) as [r|] eqn:E'; [|reflexivity]. apply ranges_get_in in E'; [|exact ND']. apply (Permutation_in _ P) in E'. apply ranges_get_in in E'; [|exact ND]. congruence.
  Qed.
End pickles.

(** ** Histories *)
Lemma one_range_pad n i t k d e : one_range e -> one_range (pad n i t k d e).
Proof.
  induction e as [e IH] using enc_ind'. intros [O1 O2]. rewrite pad_unfold.
  assert (F : Forall one_range (map (pad n i t k d) (overflowing e))) by (rewrite Forall_map; rewrite Forall_forall in *; auto).
  unfold pad_one. destruct (n <=? _); [constructor; [exact O1|exact F]|]. destruct d; constructor; cbn [sequence_ranges overflowing set_overflowing]; try assumption.
  unfold shift_ranges. rewrite map_map. exact O1.
Qed.
Lemma merge_keys n m2 : forall m1, NoDup (map fst m1) -> NoDup (map fst (merge_ranges n m1 m2)).
Proof. unfold merge_ranges. induction m2 as [|x m2 IH]; intros m1 H; cbn [fold_left]; [exact H|]. apply IH. apply insert_keys. exact H. Qed.
Lemma one_range_merge_with g a : forall b, one_range a -> one_range b -> one_range (merge_with g a b).
Proof.
  induction a as [a IHa] using enc_ind'; intros b Ha. induction b as [b IHb] using enc_ind'; intros Hb.
  rewrite merge_with_unfold; constructor; cbn [overflowing sequence_ranges merge_main].
  - apply merge_keys. destruct Ha. assumption.
  - destruct Ha as [Ha Hao]; destruct Hb as [Hb Hbo]. assert (Pb : one_range b) by (constructor; assumption).
    rewrite Forall_forall in *. intros x Hx; apply in_app_or in Hx; destruct Hx as [Hx|Hx].
    + apply in_flat_map in Hx; destruct Hx as (y & Hy & [<-|Hx]); [apply IHa; auto|]. apply in_map_iff in Hx; destruct Hx as (z & <- & Hz); apply IHa; auto.
    + apply in_map_iff in Hx; destruct Hx as (z & <- & Hz); apply IHb; auto.
Qed.
Lemma one_range_merge g l : Forall one_range l -> one_range (merge g l).
Proof.
  unfold merge. assert (E : one_range empty_enc) by (constructor; constructor). revert E. generalize empty_enc. induction l as [|x l IH]; intros acc A F; cbn [fold_left]; [exact A|]. inversion F; subst. apply IH; [apply one_range_merge_with|]; assumption.
Qed.
Lemma one_range_truncate e mx st d e' : parallel e -> one_range e -> truncate e mx st d = Ok e' -> one_range e'.
Proof.
  intros Hp HO Ht. destruct (Nat.le_gt_cases (enc_len e) mx) as [Hle|Hgt].
  { unfold truncate in Ht; unfold enc_len in Hle. destruct (Nat.leb_spec (length (ids e)) mx); [|lia]. congruence. }
  destruct (Nat.eq_dec mx 0) as [->|Hm].
  { unfold truncate in Ht; unfold enc_len in Hgt. destruct (Nat.leb_spec (length (ids e)) 0); [lia|]. cbn [Nat.eqb] in Ht. injection Ht as <-. constructor; [constructor|constructor; [exact HO|constructor]]. }
  destruct (Nat.lt_ge_cases st mx) as [Hs|Hs].
  - destruct (truncate_main e mx st d) as (e2 & H2 & H3 & H4 & H5 & _); [apply same_lengths_parallel; exact Hp|lia|lia|lia|].
    assert (e2 = e') by congruence. subst e2. constructor; [rewrite H4; constructor|]. eapply Forall_impl; [|exact H5]. intros o (G1 & G2 & G3). constructor; [rewrite G3; constructor|rewrite G2; constructor].
  - assert (X : truncate e mx st d = Panic) by (apply truncate_panic_iff; [apply same_lengths_parallel; exact Hp|lia]). congruence.
Qed.

Definition good (e : encoding) : Prop := parallel e /\ one_range e.

Lemma update_good objs i e : Forall good objs -> good e -> Forall good (update objs i e).
Proof.
  intros F G. unfold update. apply Forall_app. split; [|constructor; [exact G|]]; rewrite Forall_forall in *; intros x Hx; apply F.
  - rewrite <- (firstn_skipn i objs). apply in_or_app. auto.
  - rewrite <- (firstn_skipn (S i) objs). apply in_or_app. auto.
Qed.

Lemma init_ok {E T} (r : res E T) x : init r = Ok x -> r = Ok x.
Proof. destruct r; cbn; congruence. Qed.

Lemma update_other objs i j e : i <> j -> i < length objs -> nth_error (update objs i e) j = nth_error objs j.
Proof.
  intros D. unfold update. revert i j D. induction objs as [|o objs IH]; intros i j D L; [cbn in L; lia|].
  destruct i as [|i]; destruct j as [|j]; cbn [firstn skipn app nth_error]; [congruence|reflexivity|reflexivity|]. cbn in L. apply IH; lia.
Qed.
Lemma update_length objs i e : i < length objs -> length (update objs i e) = length objs.
Proof. intros L. unfold update. rewrite app_length. cbn [length]. rewrite firstn_length, skipn_length. lia. Qed.
Lemma update_this objs i e : i < length objs -> nth_error (update objs i e) i = Some e.
Proof. intros L. unfold update. rewrite nth_error_app2 by (rewrite firstn_length; lia). rewrite firstn_length, Nat.min_l by lia. rewrite Nat.sub_diag. reflexivity. Qed.

Section history.
  Context {W : Type} (order : list (nat * (nat * nat)) -> list (nat * (nat * nat))) (HO : forall m, Permutation (order m) m).

  Lemma obj_in objs i e : obj objs i = Ok e -> nth_error objs i = Some e /\ i < length objs.
  Proof. unfold obj. destruct (nth_error objs i) eqn:E; [|discriminate]. intros H. injection H as ->. split; [reflexivity|]. apply nth_error_Some. congruence. Qed.
  Lemma objs_in objs l es : map_res (obj objs) l = Ok es -> Forall (fun e => In e objs) es.
  Proof.
    revert es. induction l as [|i l IH]; intros es H; cbn [map_res] in H; [injection H as <-; constructor|].
    destruct (obj objs i) as [e|?|] eqn:E; cbn [bind] in H; try discriminate. destruct (map_res (obj objs) l) as [es'|?|]; cbn [bind] in H; try discriminate. injection H as <-.
    constructor; [|auto]. apply obj_in in E. eapply nth_error_In. apply (proj1 E).
  Qed.

  Lemma effect_good objs (c : @enc_call W) objs' : Forall good objs -> honest c -> enc_effect order objs c = Ok objs' -> Forall good objs'.
  Proof using HO.
    intros F HN H. assert (G : forall i e, obj objs i = Ok e -> good e).
    { intros i e E. rewrite Forall_forall in F. apply F. eapply nth_error_In. apply (obj_in _ _ _ E). }
    destruct c as [|l g|i s|i n kw|i m s d|i|i|i j]; cbn [enc_effect] in H.
    - injection H as <-. apply Forall_app. split; [exact F|]. constructor; [|constructor]. split; [apply empty_parallel|constructor; constructor].
    - destruct (map_res (obj objs) l) as [es|?|] eqn:E; cbn [bind] in H; try discriminate. destruct (arg_or arg_bool true g) as [b|?|]; cbn [bind] in H; try discriminate. injection H as <-.
      apply objs_in in E. assert (GE : Forall good es) by (rewrite Forall_forall in *; auto). apply Forall_app. split; [exact F|]. constructor; [|constructor].
      split; [apply merge_parallel|apply one_range_merge]; (eapply Forall_impl; [|exact GE]; intros x [X1 X2]; assumption).
    - destruct (obj objs i) as [e|?|] eqn:E; cbn [bind] in H; try discriminate. destruct (arg_nat s) as [n|?|]; cbn [bind] in H; try discriminate. injection H as <-.
      destruct (G _ _ E) as [[G1 G2] [G3 G4]]. apply update_good; [exact F|]. split; [constructor; [exact G1|exact G2]|constructor; [apply insert_keys; exact G3|exact G4]].
    - destruct (obj objs i) as [e|?|] eqn:E; cbn [bind] in H; try discriminate. unfold py_pad in H. destruct (arg_nat n) as [n'|?|]; cbn [bind] in H; try discriminate. destruct (each_kwarg pad_kwarg pad_args0 kw) as [c|?|]; cbn [bind] in H; try discriminate. injection H as <-.
      destruct (G _ _ E) as [G1 G2]. apply update_good; [exact F|]. split; [apply pad_parallel; exact G1|apply one_range_pad; exact G2].
    - destruct (obj objs i) as [e|?|] eqn:E; cbn [bind] in H; try discriminate. unfold py_truncate in H. destruct (arg_nat m) as [m'|?|]; cbn [bind] in H; try discriminate. destruct (arg_or arg_nat 0 s) as [s'|?|]; cbn [bind] in H; try discriminate. destruct (arg_or arg_side DRight d) as [d'|?|]; cbn [bind] in H; try discriminate.
      destruct (init (truncate e m' s' d')) as [e'|?|] eqn:T; cbn [bind] in H; try discriminate. injection H as <-. apply init_ok in T.
      destruct (G _ _ E) as [G1 G2]. apply update_good; [exact F|]. split; [eapply truncate_parallel; eassumption|eapply one_range_truncate; eassumption].
    - destruct (obj objs i) as [e|?|] eqn:E; cbn [bind] in H; try discriminate. injection H as <-. destruct (G _ _ E) as [[_ G1] [_ G2]]. apply Forall_app. split; [exact F|].
      rewrite Forall_forall in *. intros x Hx. split; auto.
    - destruct (obj objs i) as [e|?|] eqn:E; cbn [bind] in H; try discriminate. unfold enc_get_state in H. cbn [bind] in H. unfold enc_set_state in H. destruct (json_depth (enc_to_json e) <? recursion_limit); cbn [bind] in H; [|discriminate].
      destruct (init _) as [e'|?|] eqn:T; cbn [bind] in H; try discriminate. injection H as <-. apply init_ok in T. destruct (G _ _ E) as [G1 G2]. apply Forall_app. split; [exact F|]. constructor; [|constructor].
      split; [eapply read_parallel; eassumption|eapply read_one_range; eassumption].
    - destruct (obj objs i) as [e|?|] eqn:E; cbn [bind] in H; try discriminate. unfold enc_set_state in H. destruct (json_depth j <? recursion_limit); cbn [bind] in H; [|discriminate].
      destruct (init _) as [e'|?|] eqn:T; cbn [bind] in H; try discriminate. injection H as <-. apply init_ok in T. destruct HN as (e0 & P0 & J). injection J as <-. apply update_good; [exact F|].
      split; [eapply read_parallel; eassumption|eapply read_one_range; eassumption].
  Qed.

  Lemma calls_good (l : list (@enc_call W)) : forall objs, Forall good objs -> Forall honest l -> Forall good (enc_calls order objs l).
  Proof using HO.
    unfold enc_calls. induction l as [|c l IH]; intros objs F HN; cbn [fold_left]; [exact F|]. inversion HN; subst. apply IH; [|assumption].
    destruct (enc_effect order objs c) as [objs'|?|] eqn:E; try exact F. eapply effect_good; eassumption.
  Qed.

  (** A call leaves the objects it is not made on. *)
  Lemma effect_others objs (c : @enc_call W) objs' : enc_effect order objs c = Ok objs' ->
    (forall i, i < length objs -> changes c <> Some i -> nth_error objs' i = nth_error objs i) /\
    (changes c <> None -> length objs' = length objs) /\ (changes c = None -> exists new, objs' = objs ++ new).
  Proof.
    assert (N : forall new, objs' = objs ++ new -> changes c = None -> (forall i, i < length objs -> changes c <> Some i -> nth_error objs' i = nth_error objs i) /\ (changes c <> None -> length objs' = length objs) /\ (changes c = None -> exists new, objs' = objs ++ new)).
    { intros new -> X. split; [intros i L _; apply nth_error_app1; exact L|]. split; [congruence|eauto]. }
    assert (U : forall i e e', obj objs i = Ok e -> objs' = update objs i e' -> changes c = Some i -> (forall i, i < length objs -> changes c <> Some i -> nth_error objs' i = nth_error objs i) /\ (changes c <> None -> length objs' = length objs) /\ (changes c = None -> exists new, objs' = objs ++ new)).
    { intros i e e' E -> X. apply obj_in in E. destruct E as [_ L]. split; [intros k Lk D; apply update_other; [congruence|exact L]|]. split; [intros _; apply update_length; exact L|congruence]. }
    intros H. destruct c as [|l g|i s|i n kw|i m s d|i|i|i j]; cbn [enc_effect] in H.
    - injection H as <-. eapply N; reflexivity.
    - destruct (map_res (obj objs) l); cbn [bind] in H; try discriminate. destruct (arg_or arg_bool true g); cbn [bind] in H; try discriminate. injection H as <-. eapply N; reflexivity.
    - destruct (obj objs i) as [e|?|] eqn:E; cbn [bind] in H; try discriminate. destruct (arg_nat s); cbn [bind] in H; try discriminate. injection H as <-. eapply U; [exact E|reflexivity|reflexivity].
    - destruct (obj objs i) as [e|?|] eqn:E; cbn [bind] in H; try discriminate. destruct (py_pad n kw e); cbn [bind] in H; try discriminate. injection H as <-. eapply U; [exact E|reflexivity|reflexivity].
    - destruct (obj objs i) as [e|?|] eqn:E; cbn [bind] in H; try discriminate. destruct (py_truncate m s d e); cbn [bind] in H; try discriminate. injection H as <-. eapply U; [exact E|reflexivity|reflexivity].
    - destruct (obj objs i) as [e|?|] eqn:E; cbn [bind] in H; try discriminate. injection H as <-. eapply N; reflexivity.
    - destruct (obj objs i) as [e|?|] eqn:E; cbn [bind] in H; try discriminate. unfold enc_get_state in H. cbn [bind] in H. destruct (enc_set_state order (enc_to_json e)); cbn [bind] in H; try discriminate. injection H as <-. eapply N; reflexivity.
    - destruct (obj objs i) as [e|?|] eqn:E; cbn [bind] in H; try discriminate. destruct (enc_set_state order j); cbn [bind] in H; try discriminate. injection H as <-. eapply U; [exact E|reflexivity|reflexivity].
  Qed.

  Lemma calls_others (l : list (@enc_call W)) i : Forall (fun c => changes c <> Some i) l -> forall objs e, nth_error objs i = Some e -> nth_error (enc_calls order objs l) i = Some e.
  Proof.
    unfold enc_calls. induction 1 as [|c l D _ IH]; intros objs e H; cbn [fold_left]; [exact H|]. apply IH.
    destruct (enc_effect order objs c) as [objs'|?|] eqn:E; try exact H. apply effect_others in E. destruct E as (E & _). rewrite E; [exact H| |exact D]. apply nth_error_Some. congruence.
  Qed.
End history.
