(** Settings given from Python (C86) and [AddedToken] objects (C87). *)
From Verif Require Import Base StrBytes Utf8 EncodingModel TruncPadModel AddedModel TokenizerModel PySettingsModel PySettingsSpec PySettingsProofs.
From Coq Require Import ZArith String Permutation.

Lemma opt_says {A} kw name (get : pyval -> res set_error A) (P : A -> pyval -> Prop) x x0 : a_dict kw -> (forall v, get v = Ok x <-> P x v) -> (opt_field kw name get x x0 <-> says kw name (P x) (x = x0)).
Proof. intros D H. rewrite says_get by assumption. unfold opt_field. destruct (get_kw kw name); [apply H|reflexivity]. Qed.

Lemma trunc_meaning kw p : a_dict kw -> (truncation_means kw p <->
  exists v, get_kw kw "max_length" = Some v /\ exists n, get_usize v = Ok n /\ fold_kwargs trunc_kwarg (mkTruncParams DRight n LongestFirst 0) kw = Ok p).
Proof.
  intros D. unfold truncation_means.
  rewrite <- (opt_says kw "stride" get_usize size_of _ 0 D (fun v => get_usize_ok v _)), <- (opt_says kw "strategy" get_strategy strategy_is _ LongestFirst D (fun v => get_strategy_ok v _)),
    <- (opt_says kw "direction" get_direction direction_is _ DRight D (fun v => get_direction_ok v _)), says_get by assumption. split.
  - intros (H1 & H2 & H3 & H4). destruct (get_kw kw "max_length") as [v|]; [|destruct H1]. exists v. split; [reflexivity|]. exists (tp_max_length p). apply get_usize_ok in H1. split; [assumption|]. apply trunc_fold; auto.
  - intros (v & -> & n & H1 & H2). apply trunc_fold in H2; [|assumption]. destruct H2 as (H2 & H3 & H4 & H5). cbn [tp_stride tp_strategy tp_direction tp_max_length] in *. split; [apply get_usize_ok; congruence|auto].
Qed.

(** ** C86 *)
(** [enable_truncation] accepts exactly the documented arguments and sets what they say. *)
Theorem C86_truncation kw t t' : a_dict kw ->
  (enable_truncation t kw = (t', Ok tt) <->
   exists p, truncation_means kw p /\ tp_stride p + n_added t false <= tp_max_length p /\ t' = set_truncation t (Some p)).
Proof.
  intros D. unfold enable_truncation. split.
  - intros H. destruct (get_kw kw "max_length") as [v|] eqn:E; [|discriminate].
    destruct (let! n := get_usize v in fold_kwargs trunc_kwarg (mkTruncParams DRight n LongestFirst 0) kw) as [p| |] eqn:F; try discriminate.
    destruct (get_usize v) as [n| |] eqn:G; cbn [bind] in F; try discriminate.
    exists p. split; [apply trunc_meaning; [assumption|]; exists v; split; [assumption|]; exists n; auto|].
    unfold with_truncation in H. destruct (tp_max_length p <? n_added t false) eqn:L1; [discriminate|]. destruct (tp_max_length p - n_added t false <? tp_stride p) eqn:L2; [discriminate|]. injection H as <-. split; [lia|reflexivity].
  - intros (p & M & L & ->). apply trunc_meaning in M; [|assumption]. destruct M as (v & -> & n & -> & F). cbn [bind]. rewrite F. unfold with_truncation.
    replace (tp_max_length p <? n_added t false) with false by lia. replace (tp_max_length p - n_added t false <? tp_stride p) with false by lia. reflexivity.
Qed.
(** Otherwise it raises (or panics, if the special tokens alone are longer than
    [max_length]) and changes nothing. *)
Theorem C86_truncation_error kw t t' r : a_dict kw -> enable_truncation t kw = (t', r) -> r <> Ok tt ->
  t' = t /\ (r = Panic <-> exists p, truncation_means kw p /\ tp_max_length p < n_added t false).
Proof.
  intros D H Hr.
  assert (forall p q, truncation_means kw p -> truncation_means kw q -> p = q) as Uniq.
  { intros p q Hp Hq. apply trunc_meaning in Hp, Hq; try assumption. destruct Hp as (v & E & n & G & F), Hq as (v' & E' & n' & G' & F'). congruence. }
  unfold enable_truncation in H. destruct (get_kw kw "max_length") as [v|] eqn:E.
  2: { injection H as <- <-. split; [reflexivity|]. split; [discriminate|]. intros (p & M & _). apply trunc_meaning in M; [|assumption]. destruct M as (v & E' & _). congruence. }
  destruct (get_usize v) as [n|e|] eqn:G; cbn [bind] in H.
  2: { injection H as <- <-. split; [reflexivity|]. split; [discriminate|]. intros (p & M & _). apply trunc_meaning in M; [|assumption]. destruct M as (v' & E' & n & G' & _). congruence. }
  2: { exfalso. exact (get_usize_no v G). }
  destruct (fold_kwargs trunc_kwarg (mkTruncParams DRight n LongestFirst 0) kw) as [p|e|] eqn:F.
  2: { injection H as <- <-. split; [reflexivity|]. split; [discriminate|]. intros (p & M & _). apply trunc_meaning in M; [|assumption]. destruct M as (v' & E' & n' & G' & F'). congruence. }
  2: { exfalso. exact (fold_no trunc_kwarg kw trunc_kwarg_no _ F). }
  assert (truncation_means kw p) as M by (apply trunc_meaning; [assumption|]; exists v; split; [assumption|]; exists n; auto).
  unfold with_truncation in H. destruct (tp_max_length p <? n_added t false) eqn:L1.
  - injection H as <- <-. split; [reflexivity|]. split; [|reflexivity]. intros _. exists p. split; [assumption|lia].
  - destruct (tp_max_length p - n_added t false <? tp_stride p) eqn:L2; [|injection H as <- <-; congruence]. injection H as <- <-. split; [reflexivity|]. split; [discriminate|].
    intros (q & Mq & L). rewrite (Uniq q p Mq M) in L. lia.
Qed.

Lemma pad_meaning kw p : a_dict kw -> absent kw "length" \/ absent kw "max_length" -> (padding_means kw p <-> fold_kwargs pad_kwarg default_padding kw = Ok p).
Proof.
  intros D One. rewrite pad_fold by (try assumption; rewrite !get_absent; assumption). unfold padding_means. cbn [default_padding pp_strategy pp_direction pp_multiple pp_id pp_type_id pp_token].
  rewrite <- (opt_says kw "pad_id" get_u32 id_of _ 0%N D (fun v => get_u32_ok v _)), <- (opt_says kw "pad_type_id" get_u32 id_of _ 0%N D (fun v => get_u32_ok v _)),
    <- (opt_says kw "pad_token" get_str text_is _ _ D (fun v => get_str_ok v _)), <- (opt_says kw "direction" get_direction direction_is _ DRight D (fun v => get_direction_ok v _)).
  assert (says kw "length" (length_is (pp_strategy p)) (says kw "max_length" (length_is (pp_strategy p)) (pp_strategy p = BatchLongest)) <-> len_field kw (pp_strategy p) BatchLongest) as ->.
  { rewrite (says_get kw "length") by assumption. unfold len_field, opt_field. destruct (get_kw kw "length") as [v|]; [symmetry; apply get_length_ok|]. rewrite (says_get kw "max_length") by assumption. destruct (get_kw kw "max_length"); [symmetry; apply get_length_ok|reflexivity]. }
  assert (says kw "pad_to_multiple_of" (multiple_is (pp_multiple p)) (pp_multiple p = None) <-> mult_field kw (pp_multiple p) None) as ->.
  { rewrite says_get by assumption. unfold mult_field. destruct (get_kw kw "pad_to_multiple_of"); [symmetry; apply get_multiple_ok|reflexivity]. }
  tauto.
Qed.
(** [enable_padding] accepts exactly the documented arguments and sets what they say;
    otherwise it raises and changes nothing. *)
Theorem C86_padding kw t t' : a_dict kw -> absent kw "length" \/ absent kw "max_length" ->
  (enable_padding t kw = (t', Ok tt) <-> exists p, padding_means kw p /\ t' = with_padding t (Some p)).
Proof.
  intros D One. unfold enable_padding. split.
  - destruct (fold_kwargs pad_kwarg default_padding kw) as [p| |] eqn:F; try discriminate. intros [= <-]. exists p. split; [apply pad_meaning; assumption|reflexivity].
  - intros (p & M & ->). apply pad_meaning in M; try assumption. rewrite M. reflexivity.
Qed.
Theorem C86_padding_error kw t t' r : enable_padding t kw = (t', r) -> r <> Ok tt -> t' = t /\ exists e, r = Err e.
Proof.
  unfold enable_padding. destruct (fold_kwargs pad_kwarg default_padding kw) as [p|e|] eqn:F; intros [= <- <-] H; [congruence|eauto|]. exfalso. exact (fold_no pad_kwarg kw pad_kwarg_no _ F).
Qed.

Lemma perm_dict kw kw' : Permutation kw kw' -> a_dict kw -> a_dict kw'.
Proof. intros P. unfold a_dict. apply Permutation_NoDup, Permutation_map, P. Qed.
Lemma perm_given kw kw' name v : Permutation kw kw' -> (given kw name v <-> given kw' name v).
Proof. intros P. unfold given. split; apply Permutation_in; [|symmetry]; exact P. Qed.
Lemma perm_says kw kw' name P Q : Permutation kw kw' -> (says kw name P Q <-> says kw' name P Q).
Proof. intros H. unfold says, absent. split; (intros [(v & G & Hv) | (A & HQ)]; [left; exists v; split; [apply (perm_given _ _ _ _ H), G|assumption] | right; split; [intros v G; apply (A v), (perm_given _ _ _ _ H), G|assumption]]). Qed.
(** The order of the arguments does not matter. *)
Theorem C86_order kw kw' t : Permutation kw kw' -> a_dict kw ->
  fst (enable_truncation t kw) = fst (enable_truncation t kw') /\ (snd (enable_truncation t kw) = Ok tt <-> snd (enable_truncation t kw') = Ok tt) /\
  (absent kw "length" \/ absent kw "max_length" -> fst (enable_padding t kw) = fst (enable_padding t kw') /\ (snd (enable_padding t kw) = Ok tt <-> snd (enable_padding t kw') = Ok tt)).
Proof.
  intros P D. pose proof (perm_dict _ _ P D) as D'.
  assert (forall (f : tokenizer -> kwargs -> tokenizer * res set_error unit), (forall t', f t kw = (t', Ok tt) <-> f t kw' = (t', Ok tt)) -> (forall k t' r, k = kw \/ k = kw' -> f t k = (t', r) -> r <> Ok tt -> t' = t) ->
    fst (f t kw) = fst (f t kw') /\ (snd (f t kw) = Ok tt <-> snd (f t kw') = Ok tt)) as K.
  { intros f H1 H2. destruct (f t kw) as [t1 r1] eqn:E1, (f t kw') as [t2 r2] eqn:E2. cbn [fst snd].
    assert (r1 = Ok tt \/ r1 <> Ok tt) as [-> | N1] by (destruct r1 as [[]| |]; [left|right..]; congruence).
    - destruct (H1 t1) as (H & _). specialize (H eq_refl). injection H as -> ->. split; tauto.
    - assert (r2 <> Ok tt) as N2 by (intros ->; apply N1; destruct (H1 t2) as (_ & H); specialize (H eq_refl); congruence).
      rewrite (H2 _ _ _ (or_introl eq_refl) E1 N1), (H2 _ _ _ (or_intror eq_refl) E2 N2). split; [reflexivity|]. split; contradiction. }
  assert (fst (enable_truncation t kw) = fst (enable_truncation t kw') /\ (snd (enable_truncation t kw) = Ok tt <-> snd (enable_truncation t kw') = Ok tt)) as (K1 & K2).
  { apply (K enable_truncation).
    - intros t'. rewrite !C86_truncation by assumption. unfold truncation_means. split; intros (p & M & L); exists p; (split; [|exact L]); [rewrite <- !(perm_says _ _ _ _ _ P)|rewrite !(perm_says _ _ _ _ _ P)]; exact M.
    - intros k t' r [-> | ->] E N; (eapply C86_truncation_error; [|exact E|exact N]; assumption). }
  split; [exact K1|]. split; [exact K2|]. clear K1 K2.
  intros One. assert (absent kw' "length" \/ absent kw' "max_length") as One' by (destruct One as [A | A]; [left|right]; intros v G; apply (A v), (perm_given _ _ _ _ P), G).
  apply (K enable_padding); [|intros k t' r [-> | ->] E N; eapply C86_padding_error; [exact E|exact N|exact E|exact N]].
  intros t'. rewrite !C86_padding by assumption. unfold padding_means. split; intros (p & (M1 & M2) & L); exists p; (split; [|exact L]); (split;
    [clear M2; unfold says at 1; unfold says at 1 in M1; destruct M1 as [(v & G & Hv) | (A & Hs)]; [left; exists v; split; [apply (perm_given _ _ _ _ P), G|exact Hv]|right; split; [intros v G; apply (A v), (perm_given _ _ _ _ P), G|apply (perm_says _ _ _ _ _ P), Hs]] |]).
  - rewrite <- !(perm_says _ _ _ _ _ P). exact M2.
  - rewrite !(perm_says _ _ _ _ _ P). exact M2.
Qed.

(** [tokenizer.enable_truncation( **tokenizer.truncation )]: what a tokenizer says of its
    settings sets them again, in this or another tokenizer. *)
Theorem C86_truncation_again t u p kw kw' : tz_truncation t = Some p -> get_truncation t = Some kw -> Permutation kw kw' -> fits_truncation p ->
  tp_stride p + n_added u false <= tp_max_length p -> enable_truncation u kw' = (set_truncation u (Some p), Ok tt).
Proof.
  intros E G P (F1 & F2) L. unfold get_truncation in G. rewrite E in G. injection G as <-.
  assert (a_dict kw') as D by (apply (perm_dict _ _ P); unfold a_dict; cbn [map fst]; repeat constructor; cbn [In]; intuition discriminate).
  apply C86_truncation; [assumption|]. exists p. split; [|auto]. unfold truncation_means. rewrite <- !(perm_says _ _ _ _ _ P).
  split; [|split; [|split]]; left; eexists; (split; [unfold given; cbn [In]; auto 10|]).
  - split; [lia|auto].
  - split; [lia|auto].
  - destruct (tp_strategy p); reflexivity.
  - destruct (tp_direction p); reflexivity.
Qed.
Theorem C86_padding_again t u p kw kw' : tz_padding t = Some p -> get_padding t = Some kw -> Permutation kw kw' -> fits_padding p ->
  enable_padding u kw' = (with_padding u (Some p), Ok tt).
Proof.
  intros E G P (F1 & F2 & F3 & F4 & F5). unfold get_padding in G. rewrite E in G. injection G as <-.
  assert (a_dict kw') as D by (apply (perm_dict _ _ P); unfold a_dict; cbn [map fst]; repeat constructor; cbn [In]; intuition discriminate).
  apply C86_padding; [assumption|..].
  { right. intros v Gv. apply (perm_given _ _ _ _ P) in Gv. unfold given in Gv. cbn [In] in Gv. intuition discriminate. }
  exists p. split; [|reflexivity]. unfold padding_means. split.
  - left. eexists. split; [apply (perm_given _ _ _ _ P); unfold given; cbn [In]; left; reflexivity|]. destruct (pp_strategy p); cbn [length_is of_size]; [reflexivity|split; [lia|auto]].
  - rewrite <- !(perm_says _ _ _ _ _ P). split; [|split; [|split; [|split]]]; left; eexists; (split; [unfold given; cbn [In]; auto 10|]).
    + destruct (pp_multiple p); cbn [multiple_is of_size]; [split; [lia|auto]|reflexivity].
    + split; [lia|auto].
    + split; [lia|auto].
    + split; [reflexivity|assumption].
    + destruct (pp_direction p); reflexivity.
Qed.

(** Other arguments are ignored, misspelled ones too. *)
Theorem C86_ignored kw kw' k v t : 
  (~ In k (map text_of ["max_length"; "stride"; "strategy"; "direction"]%string) -> enable_truncation t (kw ++ (k, v) :: kw') = enable_truncation t (kw ++ kw')) /\
  (~ In k (map text_of ["direction"; "pad_to_multiple_of"; "pad_id"; "pad_type_id"; "pad_token"; "max_length"; "length"]%string) -> enable_padding t (kw ++ (k, v) :: kw') = enable_padding t (kw ++ kw')).
Proof.
  assert (forall {P} (f : P -> str -> pyval -> res set_error P), (forall p, f p k v = Ok p) -> forall l p, fold_kwargs f p (l ++ (k, v) :: kw') = fold_kwargs f p (l ++ kw')) as K.
  { intros P f H l. induction l as [|[k' v'] l IH]; intros p; cbn [app fold_kwargs]; [rewrite H; reflexivity|]. destruct (f p k' v'); cbn [bind]; auto. }
  assert (forall name l, ~ In k (map text_of l) -> In name l -> has_key k name = false) as N.
  { intros name l H I. destruct (has_key k name) eqn:E; [|reflexivity]. apply key_eq in E. subst k. exfalso. apply H. apply in_map_iff. eauto. }
  split; intros H.
  - unfold enable_truncation. assert (forall l, get_kw (l ++ (k, v) :: kw') "max_length" = get_kw (l ++ kw') "max_length") as ->.
    { induction l as [|[k' v'] l IH]; cbn [app]; rewrite ?get_cons; [rewrite (N _ _ H); [reflexivity|cbn; auto]|]. rewrite IH. reflexivity. }
    destruct (get_kw (kw ++ kw') "max_length") as [w|]; [|reflexivity]. destruct (get_usize w); cbn [bind]; try reflexivity. rewrite K; [reflexivity|].
    intros p. unfold trunc_kwarg. rewrite !(N _ _ H) by (cbn; auto 10). reflexivity.
  - unfold enable_padding. rewrite K; [reflexivity|]. intros p. unfold pad_kwarg. rewrite !(N _ _ H) by (cbn; auto 10). reflexivity.
Qed.

Definition ex_tok : tokenizer := mkTokenizer (fun _ => false) (fun _ => false) (fun _ => false) (fun n => n) None (fun _ => Ok []) None av_new None None.
Example C86_ex : exists p, truncation_means [(text_of "direction", VStr (text_of "left")); (text_of "max_length", VInt 8); (text_of "stride", VBool true)] p /\
  tp_max_length p = 8 /\ tp_stride p = 1 /\ tp_direction p = DLeft /\ fits_truncation p /\ tp_stride p + n_added ex_tok false <= tp_max_length p.
Proof.
  exists (mkTruncParams DLeft 8 LongestFirst 1). split; [|cbn; repeat split; lia]. unfold truncation_means. cbn [tp_max_length tp_stride tp_strategy tp_direction].
  split; [left; eexists; split; [right; left; reflexivity|split; [lia|auto]]|]. split; [left; eexists; split; [right; right; left; reflexivity|split; [lia|auto]]|].
  split; [right; split; [intros v G; unfold given in G; cbn [In] in G; intuition discriminate|reflexivity]|]. left. eexists. split; [left; reflexivity|reflexivity].
Qed.
(** With both names of the length, the last one counts. *)
Theorem C86_length_refuted : exists kw kw' t, Permutation kw kw' /\ a_dict kw /\ fst (enable_padding t kw) <> fst (enable_padding t kw').
Proof.
  exists [(text_of "length", VInt 3); (text_of "max_length", VInt 4)], [(text_of "max_length", VInt 4); (text_of "length", VInt 3)], ex_tok.
  split; [apply perm_swap|]. split; [unfold a_dict; repeat constructor; cbn [In]; intuition discriminate|]. intros H. apply (f_equal tz_padding) in H. vm_compute in H. discriminate.
Qed.

(** ** C87 *)
Lemma flag_says kw name o : a_dict kw -> forall x0, opt_field kw name (fun v => let! b := get_bool v in Ok (Some b)) o None -> says kw name (eq (VBool (or_else o x0))) (or_else o x0 = x0).
Proof.
  intros D x0. rewrite says_get by assumption. unfold opt_field. destruct (get_kw kw name) as [v|]; [|intros ->; reflexivity].
  destruct (get_bool v) as [b| |] eqn:E; cbn [bind]; try discriminate. intros [= <-]. apply get_bool_ok. exact E.
Qed.
(** [AddedToken(...)] makes what its arguments say. *)
Theorem C87_new content kw a : a_dict kw ->
  ((exists t, new_token content kw = Ok t /\ get_token t = a) <-> token_means (match content with Some s => s | None => [] end) kw a).
Proof.
  intros D. unfold new_token, token_means. split.
  - intros (t & H & <-). apply token_fold in H; [|assumption]. destruct H as (H0 & H1 & H2 & H3 & H4 & H5). cbn [token_from pt_content pt_special pt_single_word pt_lstrip pt_rstrip pt_normalized] in *.
    unfold get_token. cbn [at_content at_special at_single_word at_lstrip at_rstrip at_normalized]. split; [assumption|]. split.
    + rewrite says_get by assumption. unfold opt_field in H1. destruct (get_kw kw "special"); [apply get_bool_ok, H1|exact H1].
    + split; [|split; [|split]]; apply flag_says; assumption.
  - intros (H0 & H1 & H2 & H3 & H4 & H5). rewrite says_get in H1 by exact D. rewrite says_get in H2 by exact D. rewrite says_get in H3 by exact D. rewrite says_get in H4 by exact D. rewrite says_get in H5 by exact D. destruct a as [c sw l r n sp]. cbn [at_content at_special at_single_word at_lstrip at_rstrip at_normalized] in *.
    set (flag name b := match get_kw kw name with Some _ => Some b | None => None end : option bool).
    exists (mkPyToken c sp (flag "single_word"%string sw) (flag "lstrip"%string l) (flag "rstrip"%string r) (flag "normalized"%string n)). split.
    + apply token_fold; [assumption|]. cbn [token_from pt_content pt_special pt_single_word pt_lstrip pt_rstrip pt_normalized].
      assert (forall name b Q, match get_kw kw name with Some v => VBool b = v | None => Q end -> opt_field kw name (fun v => let! x := get_bool v in Ok (Some x)) (flag name b) None) as K.
      { intros name b Q. unfold opt_field, flag. destruct (get_kw kw name); [intros <-; reflexivity|reflexivity]. }
      split; [assumption|]. split; [unfold opt_field; destruct (get_kw kw "special"); [subst; reflexivity|assumption]|]. split; [exact (K _ _ _ H2)|]. split; [exact (K _ _ _ H3)|]. split; [exact (K _ _ _ H4)|exact (K _ _ _ H5)].
    + unfold get_token, flag. cbn [pt_content pt_special pt_single_word pt_lstrip pt_rstrip pt_normalized]. f_equal.
      * destruct (get_kw kw "single_word"); [reflexivity|symmetry; assumption].
      * destruct (get_kw kw "lstrip"); [reflexivity|symmetry; assumption].
      * destruct (get_kw kw "rstrip"); [reflexivity|symmetry; assumption].
      * destruct (get_kw kw "normalized"); [reflexivity|symmetry; assumption].
Qed.

Lemma token_eq_ok t u : token_eq t u = true <-> get_token t = get_token u.
Proof.
  unfold token_eq, added_token_eqb. rewrite !andb_true_iff, str_eqb_eq, !eqb_true_iff. destruct (get_token t), (get_token u); cbn. split; [intros (((((-> & ->) & ->) & ->) & ->) & ->); reflexivity|intros [= -> -> -> -> -> ->]; auto 10].
Qed.
(** A pickled or copied token is the same token: equal, with the same hash; so is one read
    from a tokenizer. *)
Theorem C87_pickle t state : forallb is_scalar (pt_content t) = true -> Permutation (token_state t) state ->
  exists u, unpickle state = Ok u /\ get_token u = get_token t /\ token_eq t u = true /\ forall H (hash : str -> H), token_hash hash u = token_hash hash t.
Proof.
  intros S P. assert (a_dict state) as D by (apply (perm_dict _ _ P); unfold a_dict, token_state; cbn [map fst]; repeat constructor; cbn [In]; intuition discriminate).
  exists (of_token (get_token t)). assert (get_token (of_token (get_token t)) = get_token t) as E by (destruct (get_token t); reflexivity).
  split; [|split; [exact E|split; [apply token_eq_ok; symmetry; exact E|intros H hash; unfold token_hash; rewrite E; reflexivity]]].
  unfold unpickle. apply token_fold; [assumption|].
  assert (forall name v, In (text_of name, v) (token_state t) -> get_kw state name = Some v) as G by (intros name v I; apply get_given; [assumption|]; apply (perm_given _ _ _ _ P), I).
  unfold opt_field, token_state in *. rewrite (G "content"%string _ (or_introl eq_refl)), (G "single_word"%string _ (or_intror (or_introl eq_refl))), (G "lstrip"%string _ (or_intror (or_intror (or_introl eq_refl)))),
    (G "rstrip"%string _ (or_intror (or_intror (or_intror (or_introl eq_refl))))), (G "normalized"%string _ (or_intror (or_intror (or_intror (or_intror (or_introl eq_refl)))))),
    (G "special"%string _ (or_intror (or_intror (or_intror (or_intror (or_intror (or_introl eq_refl))))))).
  cbn [get_str get_bool bind of_token pt_content pt_special pt_single_word pt_lstrip pt_rstrip pt_normalized]. unfold get_token at 1. cbn [at_content]. rewrite S. auto 10.
Qed.
Theorem C87_decoder a : get_token (of_token a) = a.
Proof. destruct a. reflexivity. Qed.
Theorem C87_equal t u : (token_eq t u = true <-> get_token t = get_token u) /\ (token_eq t u = true -> forall H (hash : str -> H), token_hash hash t = token_hash hash u).
Proof. split; [apply token_eq_ok|]. intros E H hash. apply token_eq_ok in E. unfold token_hash. congruence. Qed.

(** ** Adding *)
Lemma replace_same {A} (l : list A) i x : nth_error l i = Some x -> replace_nth l i x = l.
Proof. revert i. induction l as [|y l IH]; intros [|i] H; cbn in *; try discriminate; [congruence|]. f_equal. auto. Qed.
Lemma replace_get {A} (l : list A) i x j y : nth_error l i = Some y -> nth_error (replace_nth l i x) j = if j =? i then Some x else nth_error l j.
Proof. revert i j. induction l as [|z l IH]; intros [|i] [|j] H; cbn in *; try discriminate; auto. Qed.
Lemma means_nil s a : token_means s [] a -> a = get_token (token_from s false).
Proof.
  intros (H0 & H1 & H2 & H3 & H4 & H5). assert (a_dict []) as D by constructor. rewrite says_get in H1 by exact D. rewrite says_get in H2 by exact D. rewrite says_get in H3 by exact D. rewrite says_get in H4 by exact D. rewrite says_get in H5 by exact D. cbn in H1, H2, H3, H4, H5. destruct a. cbn in *. subst. reflexivity.
Qed.
Lemma means_special s a : token_means s [(text_of "special", VBool true)] a -> a = get_token (token_from s true).
Proof.
  intros (H0 & H1 & H2 & H3 & H4 & H5). assert (a_dict [(text_of "special", VBool true)]) as D by (unfold a_dict; repeat constructor; cbn; tauto). rewrite says_get in H1 by exact D. rewrite says_get in H2 by exact D. rewrite says_get in H3 by exact D. rewrite says_get in H4 by exact D. rewrite says_get in H5 by exact D. cbn in H1, H2, H3, H4, H5. injection H1 as H1. destruct a. cbn in *. subst. reflexivity.
Qed.

Lemma Forall2_weak {A B} (P Q : A -> B -> Prop) l l' : (forall a b, P a b -> Q a b) -> Forall2 P l l' -> Forall2 Q l l'.
Proof. intros H F. induction F; constructor; auto. Qed.
(** [add_tokens] adds the tokens its items stand for, and leaves the objects alone. *)
Theorem C87_add {T} (add : T -> list added_token -> T * option nat) heap t items l : Forall2 (is_item heap) items l ->
  py_add add false heap t items = (heap, fst (add t l), Ok (snd (add t l))).
Proof.
  intros H. unfold py_add. assert (collect false heap items = (heap, Ok l)) as ->; [|destruct (add t l); reflexivity].
  induction H as [|it a items l I H IH]; [reflexivity|]. destruct it as [s | i |]; cbn [is_item collect] in *.
  - destruct I as (S & M). rewrite S, IH, (means_nil _ _ M). reflexivity.
  - destruct I as (u & N & ->). rewrite N, (replace_same _ _ _ N), IH. reflexivity.
  - destruct I.
Qed.
(** [add_special_tokens] adds them as special tokens; the objects become special. *)
Theorem C87_add_special {T} (add : T -> list added_token -> T * option nat) heap t items l : Forall2 (is_special_item heap) items l ->
  exists heap', py_add add true heap t items = (heap', fst (add t l), Ok (snd (add t l))) /\
    forall i, (In (ItTok i) items -> nth_error heap' i = option_map (fun u => set_special u true) (nth_error heap i)) /\ (~ In (ItTok i) items -> nth_error heap' i = nth_error heap i).
Proof.
  intros H. unfold py_add. assert (exists heap', collect true heap items = (heap', Ok l) /\
    forall i, (In (ItTok i) items -> nth_error heap' i = option_map (fun u => set_special u true) (nth_error heap i)) /\ (~ In (ItTok i) items -> nth_error heap' i = nth_error heap i)) as (heap' & -> & Hh).
  2: { exists heap'. split; [destruct (add t l); reflexivity|exact Hh]. }
  revert heap l H. induction items as [|it items IH]; intros heap l H; inversion H as [|? a ? l' I H']; subst.
  - exists heap. split; [reflexivity|]. intros i. split; [intros []|reflexivity].
  - destruct it as [s | i |]; cbn [is_special_item collect] in *; [| |destruct I].
    + destruct I as (S & M). rewrite S, (means_special _ _ M). destruct (IH heap l' H') as (heap' & -> & Hh). exists heap'. split; [reflexivity|].
      intros j. destruct (Hh j) as (Hj & Hj'). cbn [In]. split; [intros [X | X]; [discriminate|auto]|intros X; apply Hj'; auto].
    + destruct I as (u & N & C & Sp & Sw & Ls & Rs & No). rewrite N.
      assert (a = get_token (set_special u true)) as ->.
      { destruct a as [c sw ls rs n sp]. unfold get_token, set_special in *. cbn in *. subst. f_equal. destruct (pt_normalized u) as [[]|]; cbn; [apply No; reflexivity|..]; destruct n; try reflexivity; destruct No as (No & _); specialize (No eq_refl); discriminate. }
      destruct (IH (replace_nth heap i (set_special u true)) l') as (heap' & -> & Hh).
      { eapply Forall2_weak; [|exact H']. intros it b Hb. destruct it as [s | j |]; cbn [is_special_item] in *; [exact Hb| |exact Hb]. destruct Hb as (w & Nw & Hb).
        rewrite (replace_get _ _ _ _ _ N). destruct (Nat.eqb_spec j i) as [->|Dj]; [|exists w; auto]. rewrite N in Nw. injection Nw as <-. exists (set_special u true). split; [reflexivity|]. exact Hb. }
      exists heap'. split; [reflexivity|]. intros j. destruct (Hh j) as (Hj & Hj'). rewrite (replace_get _ _ _ _ _ N) in Hj, Hj'. cbn [In].
      assert (In (ItTok j) items \/ ~ In (ItTok j) items) as [Ij | Ij].
      { clear. induction items as [|x items [X | X]]; [right; intros []|left; right; assumption|]. destruct x as [| i'|]; [right; intros [Y | Y]; [discriminate|auto]| |right; intros [Y | Y]; [discriminate|auto]].
        destruct (Nat.eq_dec i' j) as [->|Dj]; [left; left; reflexivity|right; intros [Y | Y]; [congruence|auto]]. }
      * split; [intros _|intros X; exfalso; apply X; auto]. rewrite (Hj Ij). destruct (Nat.eqb_spec j i) as [E|Dj]; [subst j; rewrite N; reflexivity|reflexivity].
      * rewrite (Hj' Ij). destruct (Nat.eqb_spec j i) as [E|Dj].
        -- subst j. rewrite N. split; [reflexivity|]. intros X. exfalso. apply X. auto.
        -- split; [intros [X | X]; [congruence|contradiction]|reflexivity].
Qed.
(** A list with something else raises and leaves the tokenizer as it was. *)
Theorem C87_add_error {T} (add : T -> list added_token -> T * option nat) special heap t items1 items2 :
  Forall (fun it => match it with ItStr s => forallb is_scalar s = true | ItTok i => i < Datatypes.length heap | ItOther => False end) items1 ->
  exists heap', py_add add special heap t (items1 ++ ItOther :: items2) = (heap', t, Err SType) /\ (special = false -> heap' = heap).
Proof.
  intros H. unfold py_add. assert (exists heap', collect special heap (items1 ++ ItOther :: items2) = (heap', Err SType) /\ (special = false -> heap' = heap)) as (heap' & -> & E); [|exists heap'; auto].
  revert heap H. induction items1 as [|it items1 IH]; intros heap H; cbn [app collect]; [exists heap; auto|]. apply Forall_cons_iff in H. destruct H as (H0 & H).
  destruct it as [s | i |]; [| |destruct H0].
  - rewrite H0. destruct (IH heap H) as (heap' & -> & E). exists heap'. auto.
  - destruct (nth_error heap i) as [u|] eqn:N; [|apply nth_error_None in N; lia].
    assert (forall x, Datatypes.length (replace_nth heap i x) = Datatypes.length heap) as L by (intros x; clear; revert i; induction heap as [|y heap IH]; intros [|i]; cbn; auto).
    destruct (IH (replace_nth heap i (if special then set_special u true else u))) as (heap' & -> & E); [eapply Forall_impl; [|exact H]; intros [| |]; auto; rewrite L; auto|].
    exists heap'. split; [reflexivity|]. intros ->. rewrite E by reflexivity. apply replace_same, N.
Qed.

Example C87_ex : token_means (text_of "<s>") [(text_of "special", VBool true); (text_of "lstrip", VBool true)] (mkAdded (text_of "<s>") false true false false true) /\
  Forall2 (is_special_item [token_from (text_of "<m>") false]) [ItTok 0; ItStr (text_of "x"); ItTok 0]
    [mkAdded (text_of "<m>") false false false false true; mkAdded (text_of "x") false false false false true; mkAdded (text_of "<m>") false false false false true].
Proof.
  split.
  - apply (C87_new (Some (text_of "<s>"))); [unfold a_dict; repeat constructor; cbn [In]; intuition discriminate|]. eexists. split; reflexivity.
  - assert (is_special_item [token_from (text_of "<m>") false] (ItTok 0) (mkAdded (text_of "<m>") false false false false true)) as T by (eexists; split; [reflexivity|]; cbn; intuition discriminate).
    constructor; [exact T|]. constructor; [|constructor; [exact T|constructor]]. split; [reflexivity|]. apply (C87_new (Some (text_of "x"))); [unfold a_dict; repeat constructor; cbn [In]; tauto|]. eexists. split; reflexivity.
Qed.
(** A copy is equal, but made special it is another token than the original made special:
    copying fixes whether the token is normalized. *)
Theorem C87_copy_refuted : exists t u, unpickle (token_state t) = Ok u /\ token_eq t u = true /\ token_eq (set_special t true) (set_special u true) = false.
Proof. exists (token_from (text_of "a") false). eexists. split; [reflexivity|]. split; reflexivity. Qed.
(** An [add_special_tokens] that fails has changed the objects before the wrong item. *)
Theorem C87_error_refuted : exists heap heap' items, py_add (fun t (_ : list added_token) => (t, Some 0)) true heap tt items = (heap', tt, Err SType) /\ heap' <> heap.
Proof. exists [token_from (text_of "a") false]. eexists. exists [ItTok 0; ItOther]. split; [reflexivity|]. discriminate. Qed.
