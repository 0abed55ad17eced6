(** Proofs for C102. *)
From Coq Require Import ZArith String.
From Verif Require Import Base StrBytes ListFacts AMap EncodingModel BpeWordModel BpeModel BpeSpec WordPieceModel UnigramModel CacheModel CacheSpec CacheProps ModelFilesModel ModelFilesSpec PyModelModel PyModelSpec.

Section kwargs.
  Context {W : Type}.

  Lemma number_read (a : arg W) n : arg_usize a = Ok n <-> is_number a n.
  Proof.
    unfold is_number. destruct a as [|b|z|w|s|]; cbn [arg_usize]; try (split; [discriminate|intros [[E _]|[[E _]|[E _]]]; discriminate]).
    - destruct b; (split; [intros E; injection E as <-; auto|intros [[E _]|[[E X]|[E X]]]; try discriminate; rewrite X; reflexivity]).
    - destruct (Z.leb 0 z && Z.ltb z (2 ^ 64)) eqn:E.
      + apply andb_true_iff in E. destruct E as [E1 E2]. apply Z.leb_le in E1. apply Z.ltb_lt in E2. split.
        * intros X. injection X as <-. left. split; [f_equal; lia|lia].
        * intros [[X L]|[[X _]|[X _]]]; try discriminate. injection X as ->. f_equal. lia.
      + split; [discriminate|]. intros [[X L]|[[X _]|[X _]]]; try discriminate. injection X as ->. apply andb_false_iff in E. destruct E as [E|E]; [apply Z.leb_gt in E|apply Z.ltb_ge in E]; lia.
  Qed.

  Lemma text_read (a : arg W) s : arg_str a = Ok s <-> is_text a s.
  Proof. unfold is_text. destruct a; cbn [arg_str]; (split; intros E; try discriminate; injection E as ->; reflexivity). Qed.
  Lemma flag_read (a : arg W) b : arg_bool a = Ok b <-> is_flag a b.
  Proof. unfold is_flag. destruct a; cbn [arg_bool]; (split; intros E; try discriminate; injection E as ->; reflexivity). Qed.

  Lemma says_nil {T} (M : arg W -> T -> Prop) k d v : kw_says M [] k d v <-> v = d.
  Proof. unfold kw_says. cbn. tauto. Qed.

  Lemma says_cons {T} (M : arg W -> T -> Prop) k a kw x d v : ~ In k (map fst kw) ->
    (kw_says M ((k, a) :: kw) x d v <-> if str_eqb (key x) k then M a v else kw_says M kw x d v).
  Proof. intros _. unfold kw_says. cbn [aget]. destruct (str_eqb (key x) k); reflexivity. Qed.

  Lemma says_other {T} (M : arg W -> T -> Prop) kw x d v : ~ In (key x) (map fst kw) -> (kw_says M kw x d v <-> v = d).
  Proof.
    intros H. unfold kw_says. destruct (aget str_eqb (key x) kw) as [a|] eqn:E; [|tauto]. apply (aget_In str_eqb str_eqb_eq) in E. apply (in_map fst) in E. tauto.
  Qed.

  (** One argument and then the others. *)
  Lemma says_split {T} (M : arg W -> T -> Prop) k a kw x d v : ~ In k (map fst kw) ->
    (kw_says M ((k, a) :: kw) x d v <-> exists y, kw_says M [(k, a)] x d y /\ kw_says M kw x y v).
  Proof.
    intros H. rewrite (says_cons M k a kw) by exact H. destruct (str_eqb (key x) k) eqn:E.
    - apply str_eqb_eq in E. split.
      + intros X. exists v. split; [rewrite says_cons by (intros []); rewrite E, str_eqb_refl; exact X|]. apply says_other; [rewrite E; exact H|reflexivity].
      + intros (y & A & B). apply says_other in B; [|rewrite E; exact H]. subst y. rewrite says_cons in A by (intros []). rewrite E, str_eqb_refl in A. exact A.
    - split.
      + intros X. exists d. split; [rewrite says_cons by (intros []); rewrite E; apply says_nil; reflexivity|exact X].
      + intros (y & A & B). rewrite says_cons in A by (intros []). rewrite E in A. apply says_nil in A. subst y. exact B.
  Qed.

  Lemma says_one {T} (M : arg W -> T -> Prop) k a x d v : kw_says M [(k, a)] x d v <-> if str_eqb k (key x) then M a v else v = d.
  Proof.
    unfold kw_says. cbn [aget]. destruct (str_eqb k (key x)) eqn:E.
    - apply str_eqb_eq in E. subst k. rewrite str_eqb_refl. reflexivity.
    - replace (str_eqb (key x) k) with false; [reflexivity|]. symmetry. destruct (str_eqb (key x) k) eqn:E'; [|reflexivity]. apply str_eqb_eq in E'. subst k. rewrite str_eqb_refl in E. discriminate.
  Qed.

  Lemma bind_ok {E A B} (r : res E A) (f : A -> B) b : (let! x := r in Ok (f x)) = Ok b <-> exists x, r = Ok x /\ b = f x.
  Proof.
    destruct r as [x|e|]; cbn [bind]; split.
    - intros H. injection H as <-. eauto.
    - intros (y & H1 & ->). injection H1 as ->. reflexivity.
    - discriminate.
    - intros (y & H1 & _). discriminate.
    - discriminate.
    - intros (y & H1 & _). discriminate.
  Qed.

  Context (class : W -> dropout_value) (of_int : Z -> W).

  Definition bpe_says (kw : list (str * arg W)) (c c' : bpe_config) : Prop :=
    (c_files c', c_vocab c', c_merges c') = (c_files c, c_vocab c, c_merges c) /\
    kw_says is_number kw "cache_capacity" (c_cache c) (c_cache c') /\
    kw_says (none_or_dropout class of_int) kw "dropout" (c_dropout c) (c_dropout c') /\
    kw_says none_or_text kw "unk_token" (c_unk c) (c_unk c') /\
    kw_says some_text kw "continuing_subword_prefix" (c_prefix c) (c_prefix c') /\
    kw_says some_text kw "end_of_word_suffix" (c_suffix c) (c_suffix c') /\
    kw_says is_flag kw "fuse_unk" (c_fuse c) (c_fuse c') /\
    kw_says is_flag kw "byte_fallback" (c_fallback c) (c_fallback c') /\
    kw_says is_flag kw "ignore_merges" (c_ignore c) (c_ignore c').

  Lemma dropout_read (a : arg W) (f : dropout_value -> bpe_config) c c' : f DNone = c ->
    (let! o := arg_option (arg_f32 class of_int) a in match o with Some d => Ok (f d) | None => Ok c end) = Ok c' <-> exists d, none_or_dropout class of_int a d /\ c' = f d.
  Proof.
    intros HF. unfold none_or_dropout. destruct a as [|b|z|w|s|]; cbn [arg_option arg_f32 bind]; split.
    all: try discriminate.
    all: try (intros (d & [[E _]|(w' & [E|[(z' & E & _)|[[E _]|[E _]]]] & _)] & _); discriminate).
    - intros E. injection E as <-. exists DNone. split; [auto|congruence].
    - intros (d & [[_ ->]|(w & [E|[(z & E & _)|[[E _]|[E _]]]] & _)] & ->); try discriminate. congruence.
    - intros E. injection E as <-. eexists. split; [right; eexists; split; [|reflexivity]|reflexivity]. destruct b; eauto 6.
    - intros (d & [[E _]|(w & [E|[(z & E & _)|[[E ->]|[E ->]]]] & ->)] & ->); try discriminate; injection E as ->; reflexivity.
    - intros E. injection E as <-. eexists. split; [right; eexists; split; [|reflexivity]|reflexivity]. eauto 6.
    - intros (d & [[E _]|(w & [E|[(z' & E & ->)|[[E ->]|[E ->]]]] & ->)] & ->); try discriminate; injection E as ->; reflexivity.
    - intros E. injection E as <-. eexists. split; [right; eexists; split; [|reflexivity]|reflexivity]. auto.
    - intros (d & [[E _]|(w' & [E|[(z' & E & ->)|[[E ->]|[E ->]]]] & ->)] & ->); try discriminate; injection E as ->; reflexivity.
  Qed.

  Lemma unk_read (a : arg W) (f : option str -> bpe_config) c c' : f None = c ->
    (let! o := arg_option arg_str a in match o with Some t => Ok (f (Some t)) | None => Ok c end) = Ok c' <-> exists o, none_or_text a o /\ c' = f o.
  Proof.
    intros HF. unfold none_or_text, some_text. destruct a as [|b|z|w|s|]; cbn [arg_option arg_str bind]; split.
    all: try discriminate.
    all: try (intros (d & [[E _]|(s' & E & _)] & _); discriminate).
    - intros E. injection E as <-. exists None. split; [auto|congruence].
    - intros (d & [[_ ->]|(s' & E & _)] & ->); [congruence|discriminate].
    - intros E. injection E as <-. exists (Some s). split; [right; eauto|reflexivity].
    - intros (d & [[E _]|(s' & E & ->)] & ->); [discriminate|]. injection E as ->. reflexivity.
  Qed.
End kwargs.

Ltac test_keys := repeat match goal with |- context [str_eqb (key ?a) (key ?b)] =>
  let v := eval vm_compute in (str_eqb (key a) (key b)) in change (str_eqb (key a) (key b)) with v end.

Ltac say0 := split;
  [intros (x & R & E); injection E; intros; subst; repeat split; try reflexivity; try exact R
  |let X := fresh in intros (X & R); injection X as -> -> ->; destruct R as (?R1 & ?R2 & ?R3 & ?R4 & ?R5 & ?R6 & ?R7 & ?R8);
   repeat match goal with H : ?x = ?y |- _ => (is_var x; subst x) end; eexists; split; [eassumption|reflexivity]].
Ltac say L := clear; split;
  [intros (x & R & E); injection E; intros; subst; repeat split; try reflexivity; apply L in R; first [exact R|eexists; split; [exact R|reflexivity]]
  |let X := fresh in intros (X & R); injection X as -> -> ->; destruct R as (?R1 & ?R2 & ?R3 & ?R4 & ?R5 & ?R6 & ?R7 & ?R8);
   repeat match goal with H : exists s, _ = AStr s /\ _ |- _ => destruct H as (? & ? & ?) end;
   repeat match goal with H : ?x = ?y |- _ => (is_var x; subst x) end; eexists; split; [apply L; first [eassumption|reflexivity]|reflexivity]].

Section bpe.
  Context {W : Type} (class : W -> dropout_value) (of_int : Z -> W).

  Lemma kwarg_says c k (a : arg W) c' : (k = key "dropout" -> c_dropout c = DNone) -> (k = key "unk_token" -> c_unk c = None) ->
    (bpe_kwarg class of_int c (k, a) = Ok c' <-> bpe_says class of_int [(k, a)] c c').
  Proof.
    intros HD HU. unfold bpe_says. rewrite !says_one. destruct c as [fi vo me ca d u p s fu fb ig]. destruct c' as [fi' vo' me' ca' d' u' p' s' fu' fb' ig']. unfold bpe_kwarg. cbn [c_files c_vocab c_merges c_cache c_dropout c_unk c_prefix c_suffix c_fuse c_fallback c_ignore] in *.
    destruct (str_eqb k (key "cache_capacity")) eqn:E1; [apply str_eqb_eq in E1; subst k; test_keys; cbv iota; rewrite bind_ok; say (@number_read W)|].
    destruct (str_eqb k (key "dropout")) eqn:E2; [apply str_eqb_eq in E2; subst k; test_keys; cbv iota; rewrite (HD eq_refl) in *|].
    { rewrite (dropout_read class of_int a (fun d => mkBC fi vo me ca d u p s fu fb ig)) by reflexivity. clear HD HU. say0. }
    destruct (str_eqb k (key "unk_token")) eqn:E3; [apply str_eqb_eq in E3; subst k; test_keys; cbv iota; rewrite (HU eq_refl) in *|].
    { rewrite (unk_read a (fun u => mkBC fi vo me ca d u p s fu fb ig)) by reflexivity. clear HD HU. say0. }
    destruct (str_eqb k (key "continuing_subword_prefix")) eqn:E4; [apply str_eqb_eq in E4; subst k; test_keys; cbv iota; rewrite bind_ok; unfold some_text; say (@text_read W)|].
    destruct (str_eqb k (key "end_of_word_suffix")) eqn:E5; [apply str_eqb_eq in E5; subst k; test_keys; cbv iota; rewrite bind_ok; unfold some_text; say (@text_read W)|].
    destruct (str_eqb k (key "fuse_unk")) eqn:E6; [apply str_eqb_eq in E6; subst k; test_keys; cbv iota; rewrite bind_ok; say (@flag_read W)|].
    destruct (str_eqb k (key "byte_fallback")) eqn:E7; [apply str_eqb_eq in E7; subst k; test_keys; cbv iota; rewrite bind_ok; say (@flag_read W)|].
    destruct (str_eqb k (key "ignore_merges")) eqn:E8; [apply str_eqb_eq in E8; subst k; test_keys; cbv iota; rewrite bind_ok; say (@flag_read W)|].
    clear. split; [intros E; injection E; intros; subst; repeat split; reflexivity|]. intros (X & H). injection X as -> -> ->. destruct H as (-> & -> & -> & -> & -> & -> & -> & ->). reflexivity.
  Qed.

  Lemma bpe_says_split k a kw c c' : ~ In k (map fst kw) ->
    (bpe_says class of_int ((k, a) :: kw) c c' <-> exists c1, bpe_says class of_int [(k, a)] c c1 /\ bpe_says class of_int kw c1 c').
  Proof.
    intros H. unfold bpe_says at 1. rewrite !says_split by exact H. split.
    - intros (X & (y1 & P1 & Q1) & (y2 & P2 & Q2) & (y3 & P3 & Q3) & (y4 & P4 & Q4) & (y5 & P5 & Q5) & (y6 & P6 & Q6) & (y7 & P7 & Q7) & (y8 & P8 & Q8)).
      exists (mkBC (c_files c) (c_vocab c) (c_merges c) y1 y2 y3 y4 y5 y6 y7 y8). unfold bpe_says. cbn [c_files c_vocab c_merges c_cache c_dropout c_unk c_prefix c_suffix c_fuse c_fallback c_ignore]. tauto.
    - intros (c1 & (X & P1 & P2 & P3 & P4 & P5 & P6 & P7 & P8) & (Y & Q1 & Q2 & Q3 & Q4 & Q5 & Q6 & Q7 & Q8)). split; [congruence|]. repeat split; eauto.
  Qed.

  Lemma kwargs_say kw : forall c c', NoDup (map fst kw) ->
    (In (key "dropout") (map fst kw) -> c_dropout c = DNone) -> (In (key "unk_token") (map fst kw) -> c_unk c = None) ->
    (each_kwarg (bpe_kwarg class of_int) c kw = Ok c' <-> bpe_says class of_int kw c c').
  Proof.
    induction kw as [|[k a] kw IH]; intros c c' ND HD HU; cbn [each_kwarg].
    - unfold bpe_says. rewrite !says_nil. split.
      + intros E. injection E as ->. tauto.
      + destruct c, c'. cbn. intros (X & H). injection X as -> -> ->. destruct H as (-> & -> & -> & -> & -> & -> & -> & ->). reflexivity.
    - cbn [map fst] in ND. inversion ND as [|? ? NI ND']; subst. rewrite bpe_says_split by exact NI.
      assert (ST : forall c1, bpe_kwarg class of_int c (k, a) = Ok c1 <-> bpe_says class of_int [(k, a)] c c1) by (intros c1; apply kwarg_says; intros E; [apply HD|apply HU]; left; exact E).
      assert (RE : forall c1, bpe_says class of_int [(k, a)] c c1 -> (each_kwarg (bpe_kwarg class of_int) c1 kw = Ok c' <-> bpe_says class of_int kw c1 c')).
      { intros c1 (_ & _ & S2 & S3 & _). apply IH; [exact ND'| |]; intros X.
        - rewrite says_one in S2. destruct (str_eqb k (key "dropout")) eqn:E; [apply str_eqb_eq in E; subst k; tauto|]. rewrite S2. apply HD. right. exact X.
        - rewrite says_one in S3. destruct (str_eqb k (key "unk_token")) eqn:E; [apply str_eqb_eq in E; subst k; tauto|]. rewrite S3. apply HU. right. exact X. }
      destruct (bpe_kwarg class of_int c (k, a)) as [c1|e|] eqn:EK; cbn [bind]; split.
      + intros X. exists c1. pose proof (proj1 (ST c1) eq_refl) as S. split; [exact S|]. apply RE; assumption.
      + intros (c2 & S & R). apply ST in S as S'. injection S' as <-. apply RE; assumption.
      + discriminate.
      + intros (c2 & S & _). apply ST in S. discriminate.
      + discriminate.
      + intros (c2 & S & _). apply ST in S. discriminate.
  Qed.

  Definition wp_says (kw : list (str * arg W)) (c c' : wp_config) : Prop :=
    (d_file c', d_vocab c') = (d_file c, d_vocab c) /\
    kw_says is_text kw "unk_token" (d_unk c) (d_unk c') /\
    kw_says is_number kw "max_input_chars_per_word" (d_max c) (d_max c') /\
    kw_says is_text kw "continuing_subword_prefix" (d_prefix c) (d_prefix c').

  Lemma wp_kwarg_says c k (a : arg W) c' : wp_kwarg c (k, a) = Ok c' <-> wp_says [(k, a)] c c'.
  Proof.
    unfold wp_says. rewrite !says_one. destruct c as [fi vo u p n]. destruct c' as [fi' vo' u' p' n']. unfold wp_kwarg. cbn [d_file d_vocab d_unk d_prefix d_max].
    destruct (str_eqb k (key "unk_token")) eqn:E1; [|destruct (str_eqb k (key "max_input_chars_per_word")) eqn:E2; [|destruct (str_eqb k (key "continuing_subword_prefix")) eqn:E3]].
    - apply str_eqb_eq in E1. subst k. test_keys. cbv iota. rewrite bind_ok. split.
      + intros (x & R & E). injection E as -> -> -> -> ->. apply text_read in R. auto.
      + intros (X & R & -> & ->). injection X as -> ->. exists u'. split; [apply text_read; exact R|reflexivity].
    - apply str_eqb_eq in E2. subst k. test_keys. cbv iota. rewrite bind_ok. split.
      + intros (x & R & E). injection E as -> -> -> -> ->. apply number_read in R. auto.
      + intros (X & -> & R & ->). injection X as -> ->. exists n'. split; [apply number_read; exact R|reflexivity].
    - apply str_eqb_eq in E3. subst k. test_keys. cbv iota. rewrite bind_ok. split.
      + intros (x & R & E). injection E as -> -> -> -> ->. apply text_read in R. auto.
      + intros (X & -> & -> & R). injection X as -> ->. exists p'. split; [apply text_read; exact R|reflexivity].
    - split; [intros E; injection E as -> -> -> -> ->; auto|]. intros (X & -> & -> & ->). injection X as -> ->. reflexivity.
  Qed.

  Lemma wp_kwargs_say kw : forall c c', NoDup (map fst kw) -> (each_kwarg (W := W) wp_kwarg c kw = Ok c' <-> wp_says kw c c').
  Proof.
    induction kw as [|[k a] kw IH]; intros c c' ND; cbn [each_kwarg].
    - unfold wp_says. rewrite !says_nil. split.
      + intros E. injection E as ->. tauto.
      + destruct c, c'. cbn. intros (X & -> & -> & ->). injection X as -> ->. reflexivity.
    - cbn [map fst] in ND. inversion ND as [|? ? NI ND']; subst.
      assert (SP : wp_says ((k, a) :: kw) c c' <-> exists c1, wp_says [(k, a)] c c1 /\ wp_says kw c1 c').
      { unfold wp_says at 1. rewrite !says_split by exact NI. split.
        - intros (X & (y1 & P1 & Q1) & (y2 & P2 & Q2) & (y3 & P3 & Q3)). exists (mkWC (d_file c) (d_vocab c) y1 y3 y2). unfold wp_says. cbn [d_file d_vocab d_unk d_prefix d_max]. tauto.
        - intros (c1 & (X & P1 & P2 & P3) & (Y & Q1 & Q2 & Q3)). split; [congruence|]. repeat split; eauto. }
      rewrite SP. destruct (wp_kwarg c (k, a)) as [c1|e|] eqn:EK; cbn [bind]; split.
      + intros X. exists c1. split; [apply wp_kwarg_says; exact EK|]. apply IH; assumption.
      + intros (c2 & S & R). apply wp_kwarg_says in S. rewrite EK in S. injection S as ->. apply IH; assumption.
      + discriminate.
      + intros (c2 & S & _). apply wp_kwarg_says in S. congruence.
      + discriminate.
      + intros (c2 & S & _). apply wp_kwarg_says in S. congruence.
  Qed.
End bpe.

(** ** The uses of an object with a cache *)
Section uses.
  Context (pop : list merge -> option (merge * list merge)).

  Lemma assign_after m l : fold_left assign_bpe l m = after_assign m l.
  Proof.
    revert m. induction l as [|a l IH]; intros m; [destruct m; reflexivity|]. cbn [fold_left]. rewrite IH. destruct m, a; reflexivity.
  Qed.
  Lemma after_one m l a : after_assign m (l ++ [a]) = assign_bpe (after_assign m l) a.
  Proof. rewrite <- !assign_after, fold_left_app. reflexivity. Qed.

  (** One object, no call in progress. *)
  Definition alone (m : bpe) (c : option (N * nat)) (st : world) : Prop := g_insts st = [mkInst m c] /\ g_calls st = [].

  Lemma inv_dirty d d' st : (forall k, In k d -> In k d') -> inv pop d st -> inv pop d' st.
  Proof. intros H V. destruct V as [V1 V2 V3 V4 V5]. constructor; auto. intros k i id c t A B C. apply (V5 k i id c t A B). intros X. apply C, H, X. Qed.

  (** The world after one use, and what the call returned. *)
  Lemma one_use m c st u dirty : alone m c st -> inv pop (if dirty : bool then [0] else []) st ->
    (forall t s draws, u = UTokenize t s draws -> dirty = false) ->
    exists st' c', alone (match u with UAssign a => assign_bpe m a | _ => m end) c' st' /\
      inv pop (match u with UAssign (SetDropout _) | UAssign (SetIgnore _) | UResize _ | UTokenize _ _ _ => if dirty then [0] else [] | UAssign _ => [0] | UClear => [] end) st' /\
      forall l, use_all pop st (u :: l) = match u with
        | UTokenize _ s draws => option_map (cons (bpe_tokenize pop m draws s)) (use_all pop st' l)
        | _ => use_all pop st' l
        end.
  Proof.
    intros [EI EC] H HT.
    assert (N0 : nth_error (g_insts st) 0 = Some (mkInst m c)) by (rewrite EI; reflexivity).
    assert (HB : forall k, In k (if dirty then [0] else []) -> k < length (g_insts st)) by (rewrite EI; destruct dirty; cbn; intuition lia).
    assert (NC : no_call_on st 0 = true) by (unfold no_call_on; rewrite EC; reflexivity).
    assert (SI : forall o st' out, step pop st o = Some (st', out) -> (forall t k s d, o <> OStart t k s d) -> inv pop (after (if dirty then [0] else []) o) st').
    { intros o st' out E NS. eapply step_inv; [exact H|exact HB| |exact E]. intros t k s d X. destruct (NS _ _ _ _ X). }
    assert (ASG : forall m', exists st' c', step pop st (OSet 0 m') = Some (st', None) /\ alone m' c' st' /\ inv pop [0] st').
    { intros m'. assert (E : step pop st (OSet 0 m') = Some (set_inst st 0 (mkInst m' c), None)) by (cbn [step]; rewrite NC, EI; reflexivity).
      eexists _, c. split; [exact E|]. split; [split; [cbn [set_inst g_insts]; rewrite EI; reflexivity|exact EC]|]. eapply inv_dirty; [|apply (SI _ _ _ E); intros; discriminate]. destruct dirty; cbn; tauto. }
    assert (PLN : forall d i, exists st' c', step pop st (OSetPlain 0 d i) = Some (st', None) /\ alone (with_plain m d i) c' st' /\ inv pop (if dirty then [0] else []) st').
    { intros d i. assert (E : step pop st (OSetPlain 0 d i) = Some (set_inst st 0 (mkInst (with_plain m d i) c), None)) by (cbn [step]; rewrite NC, EI; reflexivity).
      eexists _, c. split; [exact E|]. split; [split; [cbn [set_inst g_insts]; rewrite EI; reflexivity|exact EC]|]. apply (SI _ _ _ E); intros; discriminate. }
    destruct u as [a| |n|t s draws].
    - destruct a as [d|o|o|o|b|b|b].
      1: destruct (PLN d (b_ignore_merges m)) as (st' & c' & E & AL & IV). 7: destruct (PLN (b_dropout m) b) as (st' & c' & E & AL & IV).
      2: destruct (ASG (assign_bpe m (SetUnk o))) as (st' & c' & E & AL & IV). 3: destruct (ASG (assign_bpe m (SetPrefix o))) as (st' & c' & E & AL & IV).
      4: destruct (ASG (assign_bpe m (SetSuffix o))) as (st' & c' & E & AL & IV). 5: destruct (ASG (assign_bpe m (SetFuse b))) as (st' & c' & E & AL & IV).
      6: destruct (ASG (assign_bpe m (SetFallback b))) as (st' & c' & E & AL & IV).
      all: exists st', c'; split; [|split; [exact IV|]].
      all: try (intros l; cbn [use_all]; rewrite N0; cbn [i_model use_op]; rewrite E; reflexivity).
      all: try exact AL. all: destruct m; exact AL.
    - destruct c as [[id cap]|].
      + assert (E : step pop st (OClear 0) = Some (set_inst (mkWorld (g_next st + 1) (g_insts st) (g_local st) (g_calls st)) 0 (mkInst m (Some (g_next st, cap))), None)) by (cbn [step]; rewrite EI; reflexivity).
        eexists _, _. split; [|split; [eapply inv_dirty; [|apply (SI _ _ _ E); intros; discriminate]; destruct dirty; cbn; tauto|]].
        * split; [cbn [set_inst g_insts]; rewrite EI; reflexivity|exact EC].
        * intros l. cbn [use_all]. rewrite N0. cbn [i_model use_op]. rewrite E. reflexivity.
      + assert (E : step pop st (OClear 0) = Some (st, None)) by (cbn [step]; rewrite EI; reflexivity).
        exists st, None. split; [split; assumption|]. split; [eapply inv_dirty; [|apply (SI _ _ _ E); intros; discriminate]; destruct dirty; cbn; tauto|].
        intros l. cbn [use_all]. rewrite N0. cbn [i_model use_op]. rewrite E. reflexivity.
    - destruct c as [[id cap]|].
      + assert (E : step pop st (OResize 0 (N.to_nat n)) = Some (set_inst st 0 (mkInst m (Some (id, N.to_nat n))), None)) by (cbn [step]; rewrite NC, EI; reflexivity).
        eexists _, _. split; [|split; [apply (SI _ _ _ E); intros; discriminate|]].
        * split; [cbn [set_inst g_insts]; rewrite EI; reflexivity|exact EC].
        * intros l. cbn [use_all]. rewrite N0. cbn [i_model use_op]. rewrite E. reflexivity.
      + assert (E : step pop st (OResize 0 (N.to_nat n)) = Some (st, None)) by (cbn [step]; rewrite NC, EI; reflexivity).
        exists st, None. split; [split; assumption|]. split; [apply (SI _ _ _ E); intros; discriminate|].
        intros l. cbn [use_all]. rewrite N0. cbn [i_model use_op]. rewrite E. reflexivity.
    - pose proof (HT _ _ _ eq_refl) as ->.
      assert (ST : (exists r, step pop st (OStart t 0 s draws) = Some (st, Some (mkOut 0 s draws r))) \/
        exists id cap, c = Some (id, cap) /\ step pop st (OStart t 0 s draws) = Some (mkWorld (g_next st) (g_insts st) (g_local st) [(t, mkCall 0 s draws id cap)], None)).
      { cbn [step]. rewrite EC, EI. cbn [aget nth_error]. destruct (is_nil s); [eauto|]. destruct (plain_dropout m); [|eauto].
        destruct (if b_ignore_merges m then b_id m s else None); [eauto|]. destruct c as [[id cap]|]; [right; eauto|left; eauto]. }
      destruct ST as [(r & E)|(id & cap & -> & E)].
      + destruct (step_inv pop [] st _ _ _ H HB ltac:(intros ? ? ? ? _ []) E) as [_ X]. destruct (X _ eq_refl) as (i & EN & ET). cbn [o_inst o_tokens o_draws o_seq] in *. rewrite EI in EN. injection EN as <-. cbn [i_model] in ET.
        exists st, c. split; [split; assumption|]. split; [exact H|]. intros l. cbn [use_all]. rewrite N0. cbn [i_model use_op]. rewrite E. cbn [o_tokens]. rewrite ET. reflexivity.
      + destruct (step_inv pop [] st _ _ _ H HB ltac:(intros ? ? ? ? _ []) E) as [H1 _]. cbn [after] in H1. set (st1 := mkWorld _ _ _ _) in *.
        assert (EF : exists loc r, step pop st1 (OFinish t) = Some (mkWorld (g_next st) [mkInst m (Some (id, cap))] loc [], Some (mkOut 0 s draws r))).
        { unfold st1. cbn [step g_calls aget]. rewrite Nat.eqb_refl. cbn [f_inst f_seq f_draws f_id f_cap g_insts g_next drop_key]. rewrite EI, Nat.eqb_refl. cbn [nth_error].
          destruct (aget str_eqb s _); [eauto|]. destruct (merge_word pop m no_draw s); eauto. }
        destruct EF as (loc & r & EF).
        destruct (step_inv pop [] st1 (OFinish t) _ _ H1 ltac:(intros ? []) ltac:(intros ? ? ? ? X0; discriminate X0) EF) as [H2 X]. cbn [after] in H2. destruct (X _ eq_refl) as (i & EN & ET). cbn [o_inst o_tokens o_draws o_seq] in *.
        unfold st1 in EN. cbn [g_insts] in EN. rewrite EI in EN. injection EN as <-. cbn [i_model] in ET.
        eexists _, _. split; [|split; [exact H2|]]; [split; reflexivity|]. intros l. cbn [use_all]. rewrite N0. cbn [i_model use_op]. rewrite E. fold st1. rewrite EF. cbn [o_tokens]. rewrite ET. reflexivity.
  Qed.

  Lemma uses_answer m0 l : forall st (dirty : bool) done c,
    alone (after_assign m0 done) c st -> inv pop (if dirty then [0] else []) st -> cleared dirty l ->
    use_all pop st l = Some (answers pop m0 done l).
  Proof.
    induction l as [|u l IH]; intros st dirty done c AL H CL; [reflexivity|].
    destruct (one_use _ c st u dirty AL H) as (st' & c' & AL' & H' & E); [intros t s draws ->; cbn in CL; tauto|]. rewrite E.
    destruct u as [a| |n|t s draws]; cbn [cleared answers] in *.
    - rewrite <- after_one in AL'. destruct a; first [apply (IH _ dirty _ _ AL' H' CL)|apply (IH _ true _ _ AL' H' CL)].
    - apply (IH _ false _ _ AL' H' CL).
    - apply (IH _ dirty _ _ AL' H' CL).
    - destruct CL as [-> CL]. rewrite (IH _ false _ _ AL' H' CL). reflexivity.
  Qed.

  (** Without a cache. *)
  Lemma uncached_answer m0 l : forall st done, alone (after_assign m0 done) None st -> use_all pop st l = Some (answers pop m0 done l).
  Proof.
    induction l as [|u l IH]; intros st done [EI EC]; [reflexivity|]. cbn [use_all]. rewrite EI. cbn [nth_error i_model].
    assert (NC : no_call_on st 0 = true) by (unfold no_call_on; rewrite EC; reflexivity).
    destruct u as [a| |n|t s draws]; cbn [answers].
    - assert (E : exists st', step pop st (use_op (after_assign m0 done) (UAssign a)) = Some (st', None) /\ alone (assign_bpe (after_assign m0 done) a) None st').
      { destruct a; cbn [use_op step]; rewrite NC, EI; cbn [nth_error]; (eexists; split; [reflexivity|]); (split; [cbn [set_inst g_insts]; rewrite EI; reflexivity|exact EC]). }
      destruct E as (st' & E & AL). rewrite E. apply IH. rewrite after_one. exact AL.
    - cbn [use_op step]. rewrite EI. cbn [nth_error]. apply IH. split; assumption.
    - cbn [use_op step]. rewrite NC, EI. cbn [nth_error]. apply IH. split; assumption.
    - cbn [use_op step]. rewrite EC, EI. cbn [aget nth_error]. unfold bpe_tokenize, tokenize_plain.
      assert (AL : alone (after_assign m0 done) None st) by (split; assumption). specialize (IH st done AL). set (m := after_assign m0 done) in *.
      destruct (is_nil s); [cbn [o_tokens]; rewrite IH; reflexivity|]. unfold plain_dropout. destruct (b_dropout m); cbn [o_tokens]; rewrite ?IH; try reflexivity.
      all: destruct (if b_ignore_merges m then b_id m s else None); cbn [o_tokens]; rewrite IH; reflexivity.
  Qed.
End uses.
