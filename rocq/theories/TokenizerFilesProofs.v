(** Proofs about saving and loading tokenizers: the added tokens. *)
From Coq Require Import Sorting.Permutation Sorting.Sorted.
From Verif Require Import Base StrBytes ListFacts AMap EncodingModel TruncPadModel NormModel PreTokModel AddedModel AddedSpec AddedProofs AddedProofs2 AddedProofs3 ProcessorsModel TokenizerModel.

(** ** The automata do not depend on the order of their patterns *)
Lemma nodup_fst {A B} (l : list (A * B)) a b b' : NoDup (map fst l) -> In (a, b) l -> In (a, b') l -> b = b'.
Proof.
  induction l as [|[x y] l IH]; intros D H H'; [destruct H|]. cbn in D. inversion D as [|? ? NI D']; subst.
  destruct H as [H|H], H' as [H'|H']; [congruence| | |eauto].
  - injection H as -> ->. exfalso. apply NI. apply (in_map fst) in H'. exact H'.
  - injection H' as -> ->. exfalso. apply NI. apply (in_map fst) in H. exact H.
Qed.

Lemma longest_perm pats pats' s : Permutation pats pats' -> NoDup (map fst pats) -> longest_at pats' s = longest_at pats s.
Proof.
  intros P D. pose proof (longest_at_spec pats s) as H. pose proof (longest_at_spec pats' s) as H'.
  assert (OC : forall q, occurs_at pats s [] q <-> occurs_at pats' s [] q).
  { intros q. split; intros (A & (j & B) & C); (split; [exact A|]; split; [exists j|exact C]); eapply Permutation_in; try exact B; [exact P|apply Permutation_sym; exact P]. }
  destruct (longest_at pats s) as [[p i]|], (longest_at pats' s) as [[p' i']|]; [| | |reflexivity].
  - destruct H as (N1 & I1 & (y1 & E1) & M1), H' as (N2 & I2 & (y2 & E2) & M2).
    assert (O1 : occurs_at pats s [] p) by (split; [exact N1|]; split; [eauto|exists y1; exact E1]).
    assert (O2 : occurs_at pats' s [] p') by (split; [exact N2|]; split; [eauto|exists y2; exact E2]).
    assert (L : length p = length p') by (apply Nat.le_antisymm; [apply M2; apply OC; exact O1|apply M1; apply OC; exact O2]).
    assert (EP : p = p').
    { rewrite E1 in E2. apply (f_equal (firstn (length p))) in E2. rewrite firstn_app, Nat.sub_diag, firstn_all, app_nil_r, L, firstn_app, Nat.sub_diag, firstn_all, app_nil_r in E2. exact E2. }
    subst p'. f_equal. f_equal. apply (nodup_fst pats p); [exact D| |exact I1]. eapply Permutation_in; [apply Permutation_sym; exact P|exact I2].
  - destruct H as (N1 & I1 & (y1 & E1) & M1). exfalso. apply (H' p). apply OC. split; [exact N1|]. split; [eauto|exists y1; exact E1].
  - destruct H' as (N1 & I1 & (y1 & E1) & M1). exfalso. apply (H p'). apply OC. split; [exact N1|]. split; [eauto|exists y1; exact E1].
Qed.

Lemma leftmost_perm pats pats' : Permutation pats pats' -> NoDup (map fst pats) ->
  forall s b k, leftmost_find pats' b k s = leftmost_find pats b k s.
Proof.
  intros P D. induction s as [|c s IH]; intros b k; [reflexivity|]. cbn [leftmost_find]. destruct k; [|apply IH].
  rewrite (longest_perm _ _ _ P D). destruct (longest_at pats (c :: s)) as [[p i]|]; rewrite IH; reflexivity.
Qed.

Definition same_trie (t t' : option (list (str * N))) : Prop :=
  match t, t' with
  | None, None => True
  | Some l, Some l' => Permutation l l' /\ NoDup (map fst l)
  | _, _ => False
  end.

Section extraction.
  Context (is_space is_word : char -> bool) (av av' : added_vocab).
  Context (R : forall i, aget N.eqb i (av_map_r av') = aget N.eqb i (av_map_r av)).
  Context (ES : av_encode_special av' = false) (ES' : av_encode_special av = false).

  Lemma find_loop_ext s : forall ms from, find_loop is_space is_word av' s ms from = find_loop is_space is_word av s ms from.
  Proof using R ES ES'.
    induction ms as [|[[st en] i] ms IH]; intros from; [reflexivity|]. cbn [find_loop]. rewrite R, ES, ES'. cbn [andb].
    destruct (aget N.eqb i (av_map_r av)) as [t|]; [|reflexivity]. cbn [of_option bind].
    match goal with |- bind ?a _ = bind ?a _ => destruct a as [sk| |]; [|reflexivity|reflexivity] end. cbn [bind]. destruct sk; [apply IH|].
    match goal with |- bind ?a _ = bind ?a _ => destruct a as [x| |]; [|reflexivity|reflexivity] end. cbn [bind].
    match goal with |- bind ?a _ = bind ?a _ => destruct a as [y| |]; [|reflexivity|reflexivity] end. cbn [bind]. rewrite IH. reflexivity.
  Qed.

  Lemma find_matches_ext s t t' : same_trie t t' -> find_matches is_space is_word av' s t' = find_matches is_space is_word av s t.
  Proof using R ES ES'.
    intros T. unfold find_matches. destruct (is_nil s); [reflexivity|]. destruct t as [l|], t' as [l'|]; try destruct T; [|reflexivity].
    rewrite (leftmost_perm l l') by assumption. apply find_loop_ext.
  Qed.

  Lemma split_loop_ext {E} (f f' : nat -> nstring -> res E (list split)) : (forall n ns, f' n ns = f n ns) ->
    forall l n, split_loop f' n l = split_loop f n l.
  Proof using.
    intros H. induction l as [|sp l IH]; intros n; [reflexivity|]. cbn [split_loop]. destruct (PreTokModel.sp_tokens sp); rewrite ?H, ?IH; reflexivity.
  Qed.
  Lemma pt_split_ext {E} (f f' : nat -> nstring -> res E (list split)) pt : (forall n ns, f' n ns = f n ns) -> pt_split f' pt = pt_split f pt.
  Proof using. intros H. unfold pt_split. rewrite (split_loop_ext f f' H). reflexivity. Qed.

  Lemma extract_ext norm s : same_trie (av_trie av) (av_trie av') -> same_trie (av_ntrie av) (av_ntrie av') ->
    extract_and_normalize is_space is_word av' norm s = extract_and_normalize is_space is_word av norm s.
  Proof using R ES ES'.
    intros T1 T2. unfold extract_and_normalize.
    rewrite (pt_split_ext (fun _ ns => split_with_indices is_space is_word av (av_trie av) ns)) by (intros; unfold split_with_indices; rewrite (find_matches_ext _ _ _ T1); reflexivity).
    destruct (pt_split _ (pre_from s)) as [pt| |]; [|reflexivity|reflexivity]. cbn [bind].
    apply pt_split_ext. intros; unfold split_with_indices; rewrite (find_matches_ext _ _ _ T2); reflexivity.
  Qed.
End extraction.

(** ** Encoding depends on what the parts do *)
Record alike_tokenizers (t t' : tokenizer) : Prop := {
  al_classes : (tz_space t', tz_word t', tz_blank t') = (tz_space t, tz_word t, tz_blank t);
  al_extract : forall s, extract_and_normalize (tz_space t) (tz_word t) (tz_added t') (tz_normalizer t') s = extract_and_normalize (tz_space t) (tz_word t) (tz_added t) (tz_normalizer t) s;
  al_pre : tz_pre_tokenizer t' = tz_pre_tokenizer t;
  al_model : forall s, tz_model t' s = tz_model t s;
  al_added : forall pair, n_added t' pair = n_added t pair;
  al_process : forall e pair add, process_step t' e pair add = process_step t e pair add;
  al_truncation : tz_truncation t' = tz_truncation t;
  al_padding : tz_padding t' = tz_padding t }.

Lemma tokenize_ext {E} (f f' : nstring -> res E (list token)) : (forall ns, f' ns = f ns) -> forall l, map_res (tokenize_one f') l = map_res (tokenize_one f) l.
Proof. intros H. induction l as [|sp l IH]; [reflexivity|]. cbn [map_res]. unfold tokenize_one at 1 3. rewrite H, IH. reflexivity. Qed.
Lemma limit_ext {E} (f f' : nstring -> res E (list token)) mx : (forall ns, f' ns = f ns) -> forall l total, limit_loop f' mx total l = limit_loop f mx total l.
Proof.
  intros H. induction l as [|sp l IH]; intros total; [reflexivity|]. cbn [limit_loop]. destruct (PreTokModel.sp_tokens sp); [rewrite IH; reflexivity|].
  rewrite H. destruct (f (sp_norm sp)) as [ts| |]; [|reflexivity|reflexivity]. cbn [bind]. rewrite IH. reflexivity.
Qed.

Section encoding.
  Context (t t' : tokenizer) (A : alike_tokenizers t t').
  Lemma do_tokenize_ext pt ty w ot : do_tokenize t' pt ty w ot = do_tokenize t pt ty w ot.
  Proof using A.
    unfold do_tokenize, tokenize_in, token_limit. rewrite (al_truncation _ _ A). set (f := fun ns => tz_model t (n_normalized ns)).
    assert (F : forall ns, (fun ns => tz_model t' (n_normalized ns)) ns = f ns) by (intros ns; apply (al_model _ _ A)).
    match goal with |- bind ?a _ = bind ?b _ => assert (X : a = b); [|rewrite X; reflexivity] end.
    destruct (match tz_truncation t with Some _ => _ | None => _ end) as [[mx d]|].
    - unfold pt_tokenize_with_limit. destruct d; rewrite (limit_ext f _ mx F); reflexivity.
    - unfold pt_tokenize. rewrite (tokenize_ext f _ F). reflexivity.
  Qed.
  Lemma encode_part_ext ty ot w s : encode_part t' ty ot w s = encode_part t ty ot w s.
  Proof using A.
    unfold encode_part. pose proof (al_classes _ _ A) as C. injection C as C1 C2 C3. rewrite C1, C2, (al_extract _ _ A).
    destruct (extract_and_normalize _ _ _ _ s) as [pt| |]; [|reflexivity|reflexivity]. cbn [bind].
    unfold do_pre_tokenize. rewrite (al_pre _ _ A). match goal with |- bind ?a _ = bind ?a _ => destruct a as [pt'| |]; [|reflexivity|reflexivity] end.
    cbn [bind]. apply do_tokenize_ext.
  Qed.
  Lemma encode_single_ext sq ty ot : encode_single t' sq ty ot = encode_single t sq ty ot.
  Proof using A.
    destruct sq as [s|ws]; cbn [encode_single]; [apply encode_part_ext|].
    match goal with |- bind ?a _ = bind ?b _ => assert (X : a = b); [|rewrite X; reflexivity] end.
    induction (combine _ ws) as [|x l IH]; [reflexivity|]. cbn [map_res]. rewrite encode_part_ext, IH. reflexivity.
  Qed.
  Lemma post_process_ext e pair add : post_process t' e pair add = post_process t e pair add.
  Proof using A.
    unfold post_process, truncate_step. rewrite (al_truncation _ _ A), (al_added _ _ A).
    match goal with |- bind ?a _ = bind ?a _ => destruct a as [[x y]| |]; [|reflexivity|reflexivity] end. cbn [bind fst snd].
    rewrite (al_process _ _ A). unfold pad_step. rewrite (al_padding _ _ A). reflexivity.
  Qed.
  Lemma encode_ext ot input add : encode t' ot input add = encode t ot input add.
  Proof using A.
    destruct input as [a|a b]; cbn [encode]; rewrite ?encode_single_ext.
    - destruct (other _) as [e| |]; [|reflexivity|reflexivity]. cbn [bind]. apply post_process_ext.
    - destruct (other (encode_single t a 0 ot)) as [e| |]; [|reflexivity|reflexivity]. cbn [bind].
      destruct (other _) as [o| |]; [|reflexivity|reflexivity]. cbn [bind]. apply post_process_ext.
  Qed.
  Lemma encode_batch_ext ot inputs add schedule : encode_batch t' ot inputs add schedule = encode_batch t ot inputs add schedule.
  Proof using A.
    unfold encode_batch, par_collect. rewrite (al_padding _ _ A).
    assert (X : forall sch sl fl, run_schedule (fun i => encode t' ot i add) inputs sch sl fl = run_schedule (fun i => encode t ot i add) inputs sch sl fl).
    { induction sch as [|i sch IH]; intros sl fl; [reflexivity|]. cbn [run_schedule]. destruct (nth_error inputs i); [|reflexivity]. rewrite encode_ext. destruct (encode t ot e add); try apply IH. reflexivity. }
    rewrite X. reflexivity.
  Qed.
End encoding.

(** ** Adding depends on the ids of the model *)
Definition same_ids (m m' : model_vocab) : Prop := (forall t, mv_token_to_id m' t = mv_token_to_id m t) /\ mv_size m' = mv_size m.
Lemma add_tokens_ext build m m' norm ts av : same_ids m m' -> add_tokens build m' norm ts av = add_tokens build m norm ts av.
Proof.
  intros [S Z]. unfold add_tokens. assert (X : forall ts av next n, add_loop m' norm ts av next n = add_loop m norm ts av next n).
  { clear ts av. induction ts as [|t ts IH]; intros av next n; [reflexivity|]. cbn [add_loop].
    assert (O : forall normed, add_one m' normed t av next = add_one m normed t av next) by (intros normed; unfold add_one, av_token_to_id; rewrite S; reflexivity).
    destruct norm as [f|].
    - destruct (is_ignored t av || negb (at_normalized t)); [rewrite O; destruct (add_one m None t av next) as [[a b] c]; apply IH|].
      destruct (f (at_content t)); [|reflexivity]. rewrite O. destruct (add_one m (Some l) t av next) as [[a b] c]. apply IH.
    - rewrite O. destruct (add_one m None t av next) as [[a b] c]. apply IH. }
  rewrite X. unfold first_next_id. rewrite Z. reflexivity.
Qed.

(** ** Vocabularies whose content was offered consistently *)
Section clean.
  Context (m : model_vocab) (MO : model_ok m) (DE : dense m).

  (** The cached names, the special set and the normalizer agree with the tokens. *)
  Record clean (norm : option (str -> option str)) (av : added_vocab) : Prop := {
    cl_name : forall i n, aget N.eqb i (av_cache av) = Some n <-> exists t, aget N.eqb i (av_map_r av) = Some t /\ special_name norm t n;
    cl_special : forall c, In c (av_special av) <-> exists t, registered av c = Some t /\ at_special t = true;
    cl_runs : forall i t f, aget N.eqb i (av_map_r av) = Some t -> at_normalized t = true -> norm = Some f -> f (at_content t) <> None }.

  Definition from_list (av : added_vocab) (ts : list added_token) : Prop := forall i t, aget N.eqb i (av_map_r av) = Some t -> In t ts.

  Lemma fresh_id normed t av next av' next' id : recorded m normed t av next av' next' id -> av_inv m av -> free_from m av next ->
    aget str_eqb (at_content t) (av_map av) = None -> aget N.eqb id (av_map_r av) = None.
  Proof using MO DE.
    intros R I (F1 & F2 & F3) NO. destruct (aget N.eqb id (av_map_r av)) as [u|] eqn:E; [|reflexivity]. exfalso.
    destruct (ai_bwd _ _ I _ _ E) as [B _]. destruct (rc_id _ _ _ _ _ _ _ _ R) as [[A _]|[A [-> _]]].
    - unfold av_token_to_id in A. rewrite NO in A. destruct (ai_id _ _ I _ _ B) as [B1|[B1 B2]]; [|apply DE in A; lia].
      apply (mo_back _ MO) in A. apply (mo_back _ MO) in B1. congruence.
    - apply (aget_In N.eqb N_eqb_eq) in E. apply (in_map fst) in E. apply F2 in E. cbn in E. lia.
  Qed.

  Lemma add_loop_runs f t ts av next n av' n' : add_loop m (Some f) (t :: ts) av next n = (av', Some n') ->
    is_ignored t av = false -> at_normalized t = true -> f (at_content t) <> None.
  Proof using. intros H IG NO X. cbn [add_loop] in H. rewrite IG, NO, X in H. discriminate. Qed.

  Lemma clean_loop norm all : consistent all -> forall ts av next n av' n',
    (forall t, In t ts -> In t all) -> av_inv m av -> free_from m av next -> clean norm av -> from_list av all ->
    add_loop m norm ts av next n = (av', Some n') -> clean norm av' /\ from_list av' all.
  Proof using MO DE.
    intros CO. induction ts as [|t ts IH]; intros av next n av' n' IN I F C L H; [cbn in H; injection H as <- <-; auto|].
    pose proof H as H0. apply add_loop_step in H. destruct H as [[IG H]|(IG & normed & a1 & nx1 & id & _ & NB1 & R & NB2 & H)].
    { eapply IH; try exact H; try assumption. intros u U. apply IN. right. exact U. }
    destruct (recorded_inv _ _ _ _ _ _ _ _ MO DE R I F) as [I1 F1].
    assert (NO : aget str_eqb (at_content t) (av_map av) = None).
    { destruct (aget str_eqb (at_content t) (av_map av)) as [j|] eqn:E; [|reflexivity]. exfalso. destruct (ai_fwd _ _ I _ _ E) as (u & G & EC).
      apply (rc_new _ _ _ _ _ _ _ _ R). unfold registered. rewrite E, G. f_equal. apply CO; [eapply L; eauto|apply IN; left; reflexivity|exact EC]. }
    pose proof (fresh_id _ _ _ _ _ _ _ R I F NO) as FR.
    assert (GR : forall i, aget N.eqb i (av_map_r a1) = if N.eqb i id then Some t else aget N.eqb i (av_map_r av)) by (intros i; rewrite (rc_map_r _ _ _ _ _ _ _ _ R); apply (aget_aset N.eqb N_eqb_eq)).
    assert (GM := registered_map_set _ _ _ _ _ _ _ _ R).
    assert (RG : forall c, registered a1 c = if str_eqb c (at_content t) then Some t else registered av c).
    { intros c. unfold registered. rewrite GM. destruct (str_eqb c (at_content t)); [rewrite GR, N.eqb_refl; reflexivity|].
      destruct (aget str_eqb c (av_map av)) as [j|] eqn:E; [|reflexivity]. rewrite GR. destruct (N.eqb j id) eqn:E2; [|reflexivity].
      apply N.eqb_eq in E2. subst j. destruct (ai_fwd _ _ I _ _ E) as (u & G & _). congruence. }
    eapply (IH a1 nx1 (n + 1)); try exact H; try assumption.
    - intros u U. apply IN. right. exact U.
    - constructor.
      + intros i x. rewrite (rc_name _ _ _ _ _ _ _ _ R), (cl_name _ _ C), GR. destruct (N.eqb i id) eqn:E.
        * apply N.eqb_eq in E. subst i. split.
          -- intros [(_ & X1 & X2 & X3)|[(u & X & _) _]]; [|congruence]. exists t. split; [reflexivity|]. split; [exact X2|]. split; [exact X3|]. apply NB2. exact X1.
          -- intros (u & X & Y1 & Y2 & f & Y3 & Y4). injection X as <-. left. split; [reflexivity|]. split; [rewrite (NB1 Y1 f Y3); exact Y4|]. auto.
        * apply N.eqb_neq in E. split; [intros [(X & _)|[X _]]; [congruence|exact X]|]. intros X. right. split; [exact X|]. intros (Y & _). congruence.
      + intros c. rewrite (rc_special _ _ _ _ _ _ _ _ R), (cl_special _ _ C), RG. destruct (str_eqb c (at_content t)) eqn:E.
        * apply str_eqb_eq in E. subst c. split.
          -- intros [(u & X & Y)|[X _]]; [unfold registered in X; rewrite NO in X; discriminate|eauto].
          -- intros (u & X & Y). injection X as <-. auto.
        * split; [intros [X|[_ X]]; [exact X|subst c; rewrite str_eqb_refl in E; discriminate]|auto].
      + intros i u f. rewrite GR. destruct (N.eqb i id); [|apply (cl_runs _ _ C)]. intros X Y Z. injection X as <-.
        subst norm. eapply add_loop_runs; eassumption.
    - intros i u. rewrite GR. destruct (N.eqb i id); [intros X; injection X as <-; apply IN; left; reflexivity|apply L].
  Qed.
End clean.

(** ** The automata are those of the tokens *)
Definition current (build : list (str * N) -> bool) (av : added_vocab) : Prop := av_refresh build av = (av, true).
Lemma refresh_current build av av' : av_refresh build av = (av', true) -> current build av'.
Proof.
  unfold current, av_refresh. destruct (is_nil (plain_pairs av) || build (plain_pairs av)) eqn:E1; [|discriminate].
  destruct (is_nil (normalized_pairs av) || build (normalized_pairs av)) eqn:E2; [|discriminate]. intros H. injection H as <-.
  match goal with |- context [plain_pairs ?a] => change (plain_pairs a) with (plain_pairs av) end.
  match goal with |- context [normalized_pairs ?a] => change (normalized_pairs a) with (normalized_pairs av) end.
  rewrite E1, E2. reflexivity.
Qed.
Lemma current_tries build av : current build av ->
  (is_nil (plain_pairs av) || build (plain_pairs av)) = true /\ (is_nil (normalized_pairs av) || build (normalized_pairs av)) = true /\
  av_trie av = (if is_nil (plain_pairs av) then None else Some (plain_pairs av)) /\
  av_ntrie av = (if is_nil (normalized_pairs av) then None else Some (normalized_pairs av)).
Proof.
  unfold current, av_refresh. destruct (is_nil (plain_pairs av) || build (plain_pairs av)) eqn:E1; [|discriminate].
  destruct (is_nil (normalized_pairs av) || build (normalized_pairs av)) eqn:E2; [|discriminate]. intros H. injection H as H.
  split; [reflexivity|]. split; [reflexivity|]. destruct av; cbn in *. injection H as H1 H2. split; symmetry; assumption.
Qed.

Lemma same_aget_perm {A} (l l' : list (N * A)) : NoDup (map fst l) -> NoDup (map fst l') -> (forall i, aget N.eqb i l' = aget N.eqb i l) -> Permutation l l'.
Proof.
  intros D D' H. apply NoDup_Permutation; [eapply NoDup_map_inv; exact D|eapply NoDup_map_inv; exact D'|]. intros [i a]. split; intros I.
  - apply (aget_In N.eqb N_eqb_eq). rewrite H. apply (In_aget N.eqb N_eqb_eq); assumption.
  - apply (aget_In N.eqb N_eqb_eq). rewrite <- H. apply (In_aget N.eqb N_eqb_eq); assumption.
Qed.

(** The same tokens under the same names give the same patterns. *)
Lemma pairs_perm av av' : NoDup (map fst (av_map_r av)) -> NoDup (map fst (av_map_r av')) ->
  (forall i, aget N.eqb i (av_map_r av') = aget N.eqb i (av_map_r av)) -> (forall i, aget N.eqb i (av_cache av') = aget N.eqb i (av_cache av)) ->
  Permutation (plain_pairs av) (plain_pairs av') /\ Permutation (normalized_pairs av) (normalized_pairs av').
Proof.
  intros D D' R C. pose proof (same_aget_perm _ _ D D' R) as P. split; unfold plain_pairs, normalized_pairs.
  - apply Permutation_flat_map. exact P.
  - erewrite (flat_map_ext _ _) at 1; [apply Permutation_flat_map; exact P|]. intros [i t]. cbn [fst snd]. rewrite C. reflexivity.
Qed.

Lemma perm_nil {A} (l l' : list A) : Permutation l l' -> is_nil l' = is_nil l.
Proof. intros P. destruct l, l'; try reflexivity; [apply Permutation_nil in P; discriminate|apply Permutation_sym in P; apply Permutation_nil in P; discriminate]. Qed.

Lemma perm_trie l l' : Permutation l l' -> (l <> [] -> NoDup (map fst l)) -> same_trie (if is_nil l then None else Some l) (if is_nil l' then None else Some l').
Proof. intros P D. rewrite (perm_nil _ _ P). destruct l; cbn [is_nil]; [exact Logic.I|]. split; [exact P|]. apply D. discriminate. Qed.

(** ** Loading what was saved *)
Lemma add_loop_total' m norm : forall ts av next n, (forall t f, In t ts -> at_normalized t = true -> norm = Some f -> f (at_content t) <> None) ->
  exists av' n', add_loop m norm ts av next n = (av', Some n').
Proof.
  induction ts as [|t ts IH]; intros av next n T; [cbn; eauto|]. cbn [add_loop]. assert (T' := fun u f H => T u f (or_intror H)).
  destruct norm as [f|].
  - destruct (is_ignored t av); cbn [orb]; [destruct (add_one m None t av next) as [[a b] r]; apply IH; exact T'|].
    destruct (at_normalized t) eqn:EN; cbn [negb]; [|destruct (add_one m None t av next) as [[a b] r]; apply IH; exact T'].
    destruct (f (at_content t)) eqn:E; [|exfalso; eapply T; eauto; left; reflexivity].
    destruct (add_one m (Some l) t av next) as [[a b] r]. apply IH. exact T'.
  - destruct (add_one m None t av next) as [[a b] r]. apply IH. exact T'.
Qed.

Lemma aget_ext_some {A} (l l' : list (N * A)) i : (forall x, aget N.eqb i l' = Some x <-> aget N.eqb i l = Some x) -> aget N.eqb i l' = aget N.eqb i l.
Proof. intros H. destruct (aget N.eqb i l) as [x|]; [apply H; reflexivity|]. destruct (aget N.eqb i l') as [x|]; [|reflexivity]. symmetry; exact (proj1 (H x) eq_refl). Qed.
Lemma aget_str_ext_some {A} (l l' : list (str * A)) i : (forall x, aget str_eqb i l' = Some x <-> aget str_eqb i l = Some x) -> aget str_eqb i l' = aget str_eqb i l.
Proof. intros H. destruct (aget str_eqb i l) as [x|]; [apply H; reflexivity|]. destruct (aget str_eqb i l') as [x|]; [|reflexivity]. symmetry; exact (proj1 (H x) eq_refl). Qed.

Record loaded_vocab (av av' : added_vocab) : Prop := {
  lv_map : forall c, aget str_eqb c (av_map av') = aget str_eqb c (av_map av);
  lv_map_r : forall i, aget N.eqb i (av_map_r av') = aget N.eqb i (av_map_r av);
  lv_cache : forall i, aget N.eqb i (av_cache av') = aget N.eqb i (av_cache av);
  lv_special : forall c, In c (av_special av') <-> In c (av_special av);
  lv_encode : av_encode_special av' = false;
  lv_keys : NoDup (map fst (av_map av'));
  lv_trie : same_trie (av_trie av) (av_trie av');
  lv_ntrie : same_trie (av_ntrie av) (av_ntrie av') }.

Lemma load_clean build m norm av : model_ok m -> dense m -> av_inv m av -> clean norm av -> current build av ->
  (forall l l', Permutation l l' -> build l = true -> build l' = true) -> (forall l, build l = true -> NoDup (map fst l)) ->
  exists av' n, av_load build m norm (av_save av) = (av', Some n) /\ loaded_vocab av av'.
Proof.
  intros MO D I C CU BP BD. unfold av_load, av_save. pose proof (sort_by_id_perm (av_map_r av)) as P.
  destruct (add_loop_total' m norm (map snd (sort_by_id (av_map_r av))) av_new (first_next_id av_new m) 0) as (a1 & n & H).
  { intros t f IT NO NF. apply in_map_iff in IT. destruct IT as ([i u] & E & IT). cbn in E. subst u. eapply (cl_runs _ _ C i); eauto.
    apply (In_aget N.eqb N_eqb_eq); [apply (ai_keys_r _ _ I)|]. eapply Permutation_in; [apply Permutation_sym; exact P|exact IT]. }
  destruct (load_loop m norm av (sort_by_id (av_map_r av)) MO D I P (sort_by_id_sorted _) (sort_by_id (av_map_r av)) [] av_new (first_next_id av_new m) 0 a1 n) as [LD _]; try exact H.
  - reflexivity.
  - constructor; cbn.
    + intros i x. split; [discriminate|]. intros (t & [] & _).
    + reflexivity.
    + intros c i. split; [discriminate|]. intros (t & [] & _).
    + intros i t. split; [discriminate|intros []].
    + intros c. split; [intros []|]. intros (i & t & [] & _).
  - cbn. lia.
  - intros i t [].
  - cbn. intros; lia.
  - assert (I1 : av_inv m a1) by (eapply add_loop_inv; try exact H; try assumption; [apply av_new_inv|apply first_next_free; [assumption|apply av_new_inv]]).
    assert (IN : forall i t, In (i, t) (sort_by_id (av_map_r av)) <-> aget N.eqb i (av_map_r av) = Some t).
    { intros i t. split; intros X.
      - apply (In_aget N.eqb N_eqb_eq); [apply (ai_keys_r _ _ I)|]. eapply Permutation_in; [apply Permutation_sym; exact P|exact X].
      - apply (aget_In N.eqb N_eqb_eq) in X. eapply Permutation_in; [exact P|exact X]. }
    assert (R : forall i, aget N.eqb i (av_map_r a1) = aget N.eqb i (av_map_r av)).
    { intros i. apply aget_ext_some. intros t. rewrite (ld_map_r _ _ _ LD). apply IN. }
    assert (CC : forall i, aget N.eqb i (av_cache a1) = aget N.eqb i (av_cache av)).
    { intros i. apply aget_ext_some. intros x. rewrite (ld_name _ _ _ LD), (cl_name _ _ C). split; intros (t & X & Y); exists t; (split; [apply IN; exact X|exact Y]). }
    assert (M : forall c, aget str_eqb c (av_map a1) = aget str_eqb c (av_map av)).
    { intros c. apply aget_str_ext_some. intros i. rewrite (ld_map _ _ _ LD). split.
      - intros (t & X & <-). apply IN in X. apply (ai_bwd _ _ I _ _ X).
      - intros X. destruct (ai_fwd _ _ I _ _ X) as (t & Y & Z). exists t. split; [apply IN; exact Y|exact Z]. }
    destruct (pairs_perm av a1 (ai_keys_r _ _ I) (ai_keys_r _ _ I1) R CC) as [PP NP].
    destruct (current_tries _ _ CU) as (B1 & B2 & T1 & T2).
    assert (OK : forall l l', Permutation l l' -> (is_nil l || build l) = true -> (is_nil l' || build l') = true).
    { intros l l' Q E. rewrite (perm_nil _ _ Q). apply orb_true_iff in E. destruct E as [-> |E]; [reflexivity|]. rewrite (BP _ _ Q E). apply orb_true_r. }
    assert (ND : forall l, (is_nil l || build l) = true -> l <> [] -> NoDup (map fst l)).
    { intros l E NE. destruct l; [congruence|]. cbn in E. apply BD. exact E. }
    unfold add_tokens. rewrite H. destruct (av_refresh build a1) as [a2 ok] eqn:ER.
    pose proof (av_refresh_core _ _ _ _ ER) as ((C1 & C2 & C3) & C4 & C5).
    assert (X : ok = true /\ av_trie a2 = (if is_nil (plain_pairs a1) then None else Some (plain_pairs a1)) /\ av_ntrie a2 = (if is_nil (normalized_pairs a1) then None else Some (normalized_pairs a1))).
    { unfold av_refresh in ER. rewrite (OK _ _ PP B1), (OK _ _ NP B2) in ER. injection ER as <- <-. auto. }
    destruct X as (-> & T1' & T2'). exists a2, n. split; [reflexivity|]. constructor.
    + intros c. rewrite C1. apply M.
    + intros i. rewrite C2. apply R.
    + intros i. rewrite C4. apply CC.
    + intros c. rewrite C3, (ld_special _ _ _ LD), (cl_special _ _ C). split.
      * intros (i & t & X & Y & <-). apply IN in X. exists t. split; [|exact Y]. unfold registered. rewrite (proj1 (ai_bwd _ _ I _ _ X)). exact X.
      * intros (t & X & Y). unfold registered in X. destruct (aget str_eqb c (av_map av)) as [i|] eqn:E; [|discriminate].
        destruct (ai_fwd _ _ I _ _ E) as (t' & Z & W). exists i, t. split; [apply IN; exact X|]. split; [exact Y|congruence].
    + rewrite C5. apply (ld_encode _ _ _ LD).
    + rewrite C1. apply (ai_keys _ _ I1).
    + rewrite T1, T1'. apply perm_trie; [exact PP|apply ND; exact B1].
    + rewrite T2, T2'. apply perm_trie; [exact NP|apply ND; exact B2].
Qed.
