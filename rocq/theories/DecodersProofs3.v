(** Proofs about Metaspace and WordPiece decoding. *)
From Verif Require Import Base ListFacts AMap StrBytes Utf8 PatternModel PatternSpec PatternProofs EncodingModel NormModel NormSpec NormProofs NormProps
  PreTokModel PreTokSpec PreTokProofs WordPieceModel WordPieceSpec WordPieceProps DecodersModel DecodersSpec DecodersProofs2.

(** ** Metaspace *)
Definition unmark (rep : char) (s : str) : str := map (fun c => if N.eqb c rep then 32%N else c) s.
Lemma unmark_marked rep s : ~ In rep s -> unmark rep (marked rep s) = s.
Proof.
  intros N. unfold unmark, marked. rewrite map_map. rewrite <- map_id. apply map_ext_in. intros c I.
  destruct (N.eqb_spec c 32) as [->|Nc]; [rewrite N.eqb_refl; reflexivity|]. destruct (N.eqb_spec c rep) as [->|]; [contradiction|reflexivity].
Qed.

Lemma keep_char rep t : flat_map (metaspace_char rep false) t = unmark rep t.
Proof. induction t as [|c t IH]; [reflexivity|]. cbn [flat_map unmark map]. unfold unmark in IH. rewrite IH. unfold metaspace_char. destruct (N.eqb c rep); reflexivity. Qed.
Lemma drop_char rep t : ~ In rep t -> flat_map (metaspace_char rep true) t = t.
Proof.
  induction t as [|c t IH]; intros N; [reflexivity|]. cbn [flat_map]. rewrite IH by (intros I; apply N; right; exact I). unfold metaspace_char.
  destruct (N.eqb_spec c rep) as [->|]; [exfalso; apply N; left; reflexivity|reflexivity].
Qed.
Lemma unmark_id rep t : ~ In rep t -> unmark rep t = t.
Proof.
  intros N. unfold unmark. rewrite <- map_id. apply map_ext_in. intros c I. destruct (N.eqb_spec c rep) as [->|]; [contradiction|reflexivity].
Qed.

Lemma metaspace_rest rep scheme toks : concat (metaspace_decode rep scheme false toks) = unmark rep (concat toks).
Proof.
  induction toks as [|t toks IH]; [reflexivity|]. cbn [metaspace_decode concat andb]. rewrite IH, keep_char. unfold unmark. rewrite map_app. reflexivity.
Qed.

(** Decoding any cut of a marked text. *)
Lemma metaspace_cut rep scheme t toks u :
  ~ In rep u -> t <> [] -> concat (t :: toks) = marked rep u -> (is_never scheme = false -> head_only rep t) ->
  concat (metaspace_decode rep scheme true (t :: toks)) = if is_never scheme then u else drop_one_space u.
Proof.
  intros Nu Nt C H. cbn [metaspace_decode concat]. rewrite metaspace_rest. cbn [andb].
  assert (U : unmark rep t ++ unmark rep (concat toks) = u).
  { unfold unmark. rewrite <- map_app. change (t ++ concat toks) with (concat (t :: toks)). rewrite C. apply unmark_marked; exact Nu. }
  destruct (is_never scheme) eqn:En; cbn [negb]; [rewrite keep_char; exact U|].
  specialize (H eq_refl). destruct t as [|c t]; [congruence|]. unfold head_only in H. cbn [tl] in H.
  destruct u as [|d u]; [discriminate|]. cbn [concat app marked map] in C. injection C as C1 C2.
  cbn [unmark map app] in U. injection U as U1 U2. cbn [flat_map drop_one_space]. rewrite drop_char by exact H.
  change (map (fun c : N => if (c =? rep)%N then 32%N else c) t) with (unmark rep t) in U2. rewrite (unmark_id rep t H) in U2. unfold metaspace_char.
  destruct (N.eqb_spec c rep) as [->|Nc].
  - subst d. exact U2.
  - destruct (N.eqb_spec d 32) as [->|]; [congruence|]. cbn [app]. f_equal; assumption.
Qed.

(** The splitting step. *)
Lemma flags_text (p : char -> bool) (segs : list (str * bool)) s :
  char_flags segs = map (fun c => (c, p c)) s -> Forall (fun sg : str * bool => snd sg = true -> length (fst sg) = 1) segs -> forall rep,
  concat (map (fun sg : str * bool => if snd sg then [rep] else fst sg) segs) = map (fun c => if p c then rep else c) s.
Proof.
  revert s. induction segs as [|[t f] segs IH]; intros s H F rep.
  - destruct s; [reflexivity|discriminate].
  - inversion F as [|? ? F1 F2]; subst. cbn [fst snd] in F1. cbn [char_flags flat_map fst snd] in H.
    change (flat_map (fun s => map (fun c => (c, snd s)) (fst s)) segs) with (char_flags segs) in H.
    assert (L : exists s1 s2, s = s1 ++ s2 /\ map (fun c => (c, f)) t = map (fun c => (c, p c)) s1 /\ char_flags segs = map (fun c => (c, p c)) s2).
    { exists (firstn (length t) s), (skipn (length t) s). split; [symmetry; apply firstn_skipn|]. rewrite <- firstn_map, <- skipn_map, <- H.
      assert (LL : length (map (fun c : N => (c, f)) t) = length t) by apply map_length. split.
      - rewrite firstn_app, LL, Nat.sub_diag, firstn_O, app_nil_r. rewrite <- LL. symmetry. apply firstn_all.
      - rewrite skipn_app, LL, Nat.sub_diag. rewrite <- LL, skipn_all. reflexivity. }
    destruct L as (s1 & s2 & -> & E1 & E2). cbn [map concat fst snd]. rewrite map_app, (IH s2 E2 F2). f_equal.
    assert (T : t = s1 /\ Forall (fun c => p c = f) s1).
    { clear -E1. revert s1 E1. induction t as [|c t IH]; intros [|d s1] E1; try discriminate; [split; [reflexivity|constructor]|].
      cbn [map] in E1. injection E1 as -> E0 E1. destruct (IH s1 E1) as [-> F]. split; [reflexivity|constructor; [symmetry; exact E0|exact F]]. }
    destruct T as [-> T]. destruct f.
    + specialize (F1 eq_refl). destruct s1 as [|c [|]]; try discriminate. inversion T as [|? ? T1 _]; subst. cbn [map]. rewrite T1. reflexivity.
    + rewrite <- (map_id s1) at 1. apply map_ext_in. intros c I. rewrite Forall_forall in T. rewrite (T c I). reflexivity.
Qed.

Lemma char_segs c s : exists segs, covers_text (char_find_matches c s) segs s /\ char_flags segs = map (fun c' => (c', N.eqb c' c)) s /\
  Forall (fun sg : str * bool => snd sg = true -> length (fst sg) = 1) segs /\ gaps_maximal segs.
Proof.
  destruct (C16_predicate (fun c' => N.eqb c' c) s) as (segs & H1 & H2 & G & H3). destruct s as [|x s].
  - exists [([], false)]. split; [split; reflexivity|]. split; [reflexivity|]. split; [|exact I]. constructor; [discriminate|constructor].
  - exists segs. split; [exact H1|]. split; [exact H2|]. split; [|exact G]. assert (N : x :: s <> []) by discriminate. specialize (H3 N).
    eapply Forall_impl; [|exact H3]. intros [t f] H E. cbn [fst snd] in *. subst f. exact H.
Qed.

Lemma replace_space_ok ns rep : aligned ns ->
  exists ns', n_replace ns (char_find_matches 32%N (n_normalized ns)) [rep] = Ok ns' /\ same_source ns ns' /\ aligned ns' /\ n_normalized ns' = marked rep (n_normalized ns).
Proof.
  intros A. destruct (char_segs 32%N (n_normalized ns)) as (segs & C & Fl & L & _).
  destruct (C20_replace ns _ segs [rep] A C) as (ns' & csegs & E & Q & _ & _ & _ & A').
  destruct (C20_replace_text ns _ segs [rep] A C) as (ns2 & E2 & T). rewrite E in E2. injection E2 as <-.
  exists ns'. split; [exact E|]. split; [exact Q|]. split; [exact A'|]. rewrite T. apply (flags_text (fun c => N.eqb c 32)); assumption.
Qed.

(** The pieces after splitting in front of every replacement character. *)
Lemma seg_members c (segs : list (str * bool)) s : char_flags segs = map (fun c' => (c', N.eqb c' c)) s ->
  Forall (fun sg : str * bool => snd sg = true -> length (fst sg) = 1) segs ->
  Forall (fun sg : str * bool => if snd sg then fst sg = [c] else ~ In c (fst sg)) segs.
Proof.
  intros H F. apply Forall_forall. intros [t f] I. rewrite Forall_forall in F. specialize (F _ I). cbn [fst snd] in *.
  assert (M : forall x, In x t -> f = N.eqb x c).
  { intros x Hx. assert (J : In (x, f) (char_flags segs)).
    { apply in_flat_map. exists (t, f). split; [exact I|]. apply in_map_iff. exists x. split; [reflexivity|exact Hx]. }
    rewrite H in J. apply in_map_iff in J. destruct J as (y & E & _). injection E as -> ->. reflexivity. }
  destruct f.
  - specialize (F eq_refl). destruct t as [|x [|]]; try discriminate. specialize (M x (or_introl eq_refl)). symmetry in M. apply N.eqb_eq in M. subst. reflexivity.
  - intros Hc. specialize (M c Hc). rewrite N.eqb_refl in M. discriminate.
Qed.

Lemma spec_next_head c : forall n (segs : list (str * bool)), length segs <= n ->
  Forall (fun sg : str * bool => if snd sg then fst sg = [c] else ~ In c (fst sg)) segs -> Forall (head_only c) (spec_next segs).
Proof.
  unfold head_only. induction n as [|n IH]; intros segs L F; [destruct segs; [constructor|cbn in L; lia]|].
  destruct segs as [|[t f] r]; [constructor|]. inversion F as [|? ? F1 F2]; subst. cbn [fst snd length] in *.
  assert (IHr : Forall (fun t0 => ~ In c (tl t0)) (spec_next r)) by (apply IH; [lia|exact F2]).
  destruct f.
  - subst t. destruct r as [|[t2 [|]] r'].
    + constructor; [cbn; tauto|constructor].
    + constructor; [cbn; tauto|exact IHr].
    + inversion F2 as [|? ? F3 F4]; subst. cbn [spec_next]. constructor; [exact F3|]. apply IH; [cbn [length] in L; lia|exact F4].
  - assert (E : spec_next ((t, false) :: r) = t :: spec_next r) by (destruct r as [|[? []]]; reflexivity). rewrite E. constructor; [|exact IHr].
    intros I. apply F1. destruct t; [destruct I|right; exact I].
Qed.

Lemma spec_next_starts c : forall n (segs : list (str * bool)), length segs <= n ->
  Forall (fun sg : str * bool => if snd sg then fst sg = [c] else ~ In c (fst sg)) segs -> gaps_maximal segs ->
  match segs with (_, false) :: _ => False | _ => True end -> Forall (fun t => hd_error t = Some c) (spec_next segs).
Proof.
  induction n as [|n IH]; intros segs L F G H; [destruct segs; [constructor|cbn in L; lia]|].
  destruct segs as [|[t f] r]; [constructor|]. destruct f; [|destruct H]. inversion F as [|? ? F1 F2]; subst. cbn [fst snd length] in *. subst t.
  destruct r as [|[t2 [|]] r'].
  - constructor; [reflexivity|constructor].
  - change (spec_next (([c], true) :: (t2, true) :: r')) with ([c] :: spec_next ((t2, true) :: r')).
    constructor; [reflexivity|]. apply IH; [lia|exact F2|exact G|exact I].
  - cbn [spec_next]. constructor; [reflexivity|]. inversion F2; subst. apply IH; [cbn [length] in L; lia|assumption| |].
    + cbn [gaps_maximal] in G. destruct r' as [|[? []]]; auto. destruct G.
    + cbn [gaps_maximal] in G. destruct r' as [|[? []]]; auto.
Qed.
Lemma spec_next_tail c (segs : list (str * bool)) :
  Forall (fun sg : str * bool => if snd sg then fst sg = [c] else ~ In c (fst sg)) segs -> gaps_maximal segs ->
  Forall (fun t => hd_error t = Some c) (tl (spec_next segs)).
Proof.
  intros F G. destruct segs as [|[t [|]] r]; [constructor| |].
  - pose proof (spec_next_starts c _ _ (le_n _) F G I) as H. destruct (spec_next ((t, true) :: r)); [constructor|]. inversion H; assumption.
  - assert (E : spec_next ((t, false) :: r) = t :: spec_next r) by (destruct r as [|[? []]]; reflexivity). rewrite E. cbn [tl].
    inversion F; subst. apply (spec_next_starts c (length r)); [lia|assumption| |].
    + destruct r as [|[? []]]; [exact I|exact G|destruct G].
    + destruct r as [|[? []]]; [exact I|exact I|destruct G].
Qed.
Lemma tl_filter_Forall {A} (P : A -> Prop) (f : A -> bool) l : Forall P (tl l) -> Forall P (tl (filter f l)).
Proof.
  destruct l as [|a l]; [constructor|]. cbn [tl filter]. intros H.
  assert (Forall P (filter f l)) by (apply Forall_forall; intros x I; apply filter_In in I; rewrite Forall_forall in H; apply H, I).
  destruct (f a); [assumption|]. destruct (filter f l); [constructor|]. cbn [tl]. inversion H0; assumption.
Qed.

Lemma offsets_same a b : same_source a b -> offsets_original a = offsets_original b.
Proof. intros [A B]. unfold offsets_original, n_len_original. rewrite A, B. reflexivity. Qed.

Lemma metaspace_one_ok rep scheme do_split i ns : aligned ns -> ~ In rep (n_normalized ns) ->
  exists new, metaspace_one rep scheme do_split i ns = Ok new /\ meta_group rep scheme do_split (mkSplit ns None) (keep_nonempty new).
Proof.
  intros A N. unfold metaspace_one. destruct (replace_space_ok ns rep A) as (ns1 & -> & Q1 & A1 & T1). cbn [bind].
  set (b := match scheme with
    | SAlways => negb (starts_with_char rep (n_normalized ns1))
    | SFirst => negb (starts_with_char rep (n_normalized ns1)) && (fst (offsets_original ns1) =? 0)
    | SNever => false end).
  assert (B : b = puts_space scheme ns && negb (starts_with_char rep (n_normalized ns1))).
  { unfold b, puts_space. rewrite (offsets_same _ _ Q1). destruct scheme; cbn [andb]; [apply andb_comm|reflexivity|reflexivity]. }
  assert (P : exists ns2, (if b then n_prepend ns1 [rep] else Ok ns1) = Ok ns2 /\ aligned ns2 /\
    n_normalized ns2 = marked rep (with_space (puts_space scheme ns) (n_normalized ns))).
  { rewrite B. destruct (n_normalized ns) as [|c s] eqn:E.
    - cbn [marked map] in T1. rewrite T1. cbn [starts_with_char negb with_space marked map]. exists ns1. rewrite andb_true_r.
      split; [|split; [exact A1|exact T1]]. destruct (puts_space scheme ns); [|reflexivity]. unfold n_prepend. rewrite T1. reflexivity.
    - assert (SW : starts_with_char rep (n_normalized ns1) = N.eqb c 32).
      { rewrite T1. cbn [marked map starts_with_char]. destruct (N.eqb_spec c 32); [apply N.eqb_refl|]. apply N.eqb_neq. intros ->. apply N. left. reflexivity. }
      rewrite SW. cbn [with_space]. destruct (puts_space scheme ns && negb (N.eqb c 32)) eqn:Eb.
      + destruct (prepend_ok ns1 rep A1 ltac:(rewrite T1; discriminate)) as (ns2 & E2 & _ & T2 & A2 & _). exists ns2.
        split; [exact E2|]. split; [exact A2|]. rewrite T2, T1. reflexivity.
      + exists ns1. auto. }
  destruct P as (ns2 & -> & A2 & T2). cbn [bind]. unfold meta_group. cbn [sp_tokens sp_norm]. rewrite <- T2. destruct do_split.
  - destruct (char_segs rep (n_normalized ns2)) as (segs & C & Fl & L & G).
    destruct (C15_split_text ns2 _ segs MergedWithNext A2 C) as (pieces & E & M & Cat & _). rewrite E. cbn [bind]. eexists. split; [reflexivity|].
    pose proof (seg_members rep segs _ Fl L) as Mem. pose proof (spec_next_head rep (length segs) segs (le_n _) Mem) as H.
    pose proof (spec_next_tail rep segs Mem G) as H'. cbn [spec_split] in M. rewrite <- M in H, H'. split; [|split; [split|]].
    + apply Forall_forall. intros sp I. pose proof (keep_nonempty_nonempty (plain_splits pieces)) as NE. rewrite Forall_forall in NE. specialize (NE sp I).
      apply filter_In in I. destruct I as [I _]. unfold plain_splits in I. apply in_map_iff in I. destruct I as (p & <- & I). cbn [sp_tokens sp_norm] in *. auto.
    + rewrite Forall_map in H. pose proof (keep_plain_Forall _ pieces H) as K. eapply Forall_impl; [|exact K]. cbn beta. tauto.
    + apply tl_filter_Forall. unfold plain_splits. destruct pieces as [|p pieces]; [constructor|]. cbn [map tl] in *. rewrite Forall_map in *.
      eapply Forall_impl; [|exact H']. cbn beta. auto.
    + rewrite concat_keep_nonempty. unfold plain_splits. rewrite map_map. cbn [sp_norm]. apply Cat. discriminate.
  - cbn [bind]. eexists. split; [reflexivity|]. split; [|split].
    + apply Forall_forall. intros sp I. pose proof (keep_nonempty_nonempty (plain_splits [ns2])) as NE. rewrite Forall_forall in NE. specialize (NE sp I).
      apply filter_In in I. destruct I as [[<-|[]] _]. cbn [sp_tokens sp_norm] in *. auto.
    + unfold keep_nonempty, plain_splits. cbn [map filter sp_norm]. destruct (is_nil (n_normalized ns2)); cbn [negb length]; auto.
    + rewrite concat_keep_nonempty. cbn. apply app_nil_r.
Qed.

Lemma metaspace_pre_ok rep scheme do_split pt :
  Forall (fun sp => sp_tokens sp = None -> aligned (sp_norm sp) /\ ~ In rep (n_normalized (sp_norm sp))) (pt_splits pt) ->
  exists pt' groups, metaspace_pre_tokenize rep scheme do_split pt = Ok pt' /\ pt_original pt' = pt_original pt /\
    pt_splits pt' = concat groups /\ Forall2 (meta_group rep scheme do_split) (pt_splits pt) groups.
Proof.
  intros OK. unfold metaspace_pre_tokenize, pt_split.
  destruct (split_loop_ok (metaspace_one rep scheme do_split) (meta_group rep scheme do_split) (pt_splits pt) 0) as (groups & E & F).
  { intros sp I. rewrite Forall_forall in OK. specialize (OK sp I). destruct (sp_tokens sp) as [ts|] eqn:Et.
    - unfold meta_group. rewrite Et. reflexivity.
    - intros i. destruct (OK eq_refl) as (A & N). destruct (metaspace_one_ok rep scheme do_split i (sp_norm sp) A N) as (new & E & G).
      exists new. split; [exact E|]. unfold meta_group in *. rewrite Et. exact G. }
  rewrite E. cbn [bind]. eexists. exists groups. split; [reflexivity|]. split; [reflexivity|]. split; [reflexivity|exact F].
Qed.

Lemma marked_concat rep (l : list str) : concat (map (marked rep) l) = marked rep (concat l).
Proof. unfold marked. rewrite concat_map. reflexivity. Qed.

(** ** WordPiece *)
Lemma strip_prefix_spec (prefix t : str) :
  match strip_prefix prefix t with Some x => t = prefix ++ x | None => forall x : str, t <> prefix ++ x end.
Proof.
  unfold strip_prefix. destruct (is_prefix prefix t) eqn:E.
  - apply is_prefix_spec in E. destruct E as [w ->]. rewrite skipn_app, skipn_all, Nat.sub_diag. reflexivity.
  - intros x ->. assert (is_prefix prefix (prefix ++ x) = true) by (apply is_prefix_spec; eauto). congruence.
Qed.

Lemma wordpiece_rest (prefix : str) (cleanup : bool) (toks : list str) :
  Forall2 (fun (t o : str) => exists g, glued prefix t g /\ o = (if cleanup then wp_cleanup g else g)) toks (wordpiece_decode prefix cleanup false toks).
Proof.
  induction toks as [|t toks IH]; [constructor|]. cbn [wordpiece_decode]. constructor; [|exact IH].
  pose proof (strip_prefix_spec prefix t) as S. destruct (strip_prefix prefix t) as [x|].
  - exists x. subst t. split; [constructor|reflexivity].
  - exists (32%N :: t). split; [constructor; exact S|reflexivity].
Qed.

Lemma glued_fun prefix t a b : glued prefix t a -> glued prefix t b -> a = b.
Proof.
  intros H. revert b. destruct H as [x|t H]; intros b H'.
  - remember (prefix ++ x) as t eqn:Et. destruct H' as [y|t H']; [apply app_inv_head in Et; congruence|]. exfalso. exact (H' x Et).
  - destruct H' as [y|t H']; [exfalso; exact (H y eq_refl)|reflexivity].
Qed.

Lemma wordpiece_rest_app prefix a b : concat (wordpiece_decode prefix false false (a ++ b)) = concat (wordpiece_decode prefix false false a) ++ concat (wordpiece_decode prefix false false b).
Proof. induction a as [|t a IH]; [reflexivity|]. cbn [app wordpiece_decode concat]. rewrite IH, app_assoc. reflexivity. Qed.

(** Continuation pieces of one word. *)
Lemma decode_continuation vocab prefix : forall xs pre toks, pre <> [] -> tokens_of vocab prefix pre xs toks ->
  concat (wordpiece_decode prefix false false (map t_value toks)) = concat xs.
Proof.
  induction xs as [|x xs IH]; intros pre [|t toks] N T; cbn [tokens_of] in T; try contradiction; [reflexivity|].
  destruct T as (_ & V & _ & T). cbn [map wordpiece_decode concat]. rewrite V. unfold entry. destruct pre as [|p pre']; [congruence|].
  pose proof (strip_prefix_spec prefix (prefix ++ x)) as S. destruct (strip_prefix prefix (prefix ++ x)) as [y|]; [|exfalso; exact (S x eq_refl)].
  apply app_inv_head in S. subst y. rewrite (IH ((p :: pre') ++ x) toks) by (assumption || discriminate). reflexivity.
Qed.

Lemma decode_word m w : good_word m w -> exists t toks, wp_tokenize m w = Ok (t :: toks) /\
  t_value t ++ concat (wordpiece_decode (w_prefix m) false false (map t_value toks)) = w /\
  concat (wordpiece_decode (w_prefix m) false false (map t_value (t :: toks))) = 32%N :: w.
Proof.
  intros (N & P & L & xs & G). destruct (C40_pieces m w xs L G) as (toks & E & T). destruct (C40_cover _ _ _ _ _ G) as [C NE].
  destruct xs as [|x xs]; [cbn in C; congruence|]. destruct toks as [|t toks]; [destruct T|].
  cbn [tokens_of] in T. destruct T as (_ & V & _ & T). cbn [entry app] in V, T. pose proof (Forall_inv NE) as Nx. cbn beta in Nx. rewrite <- C.
  exists t, toks. split; [rewrite C; exact E|]. rewrite V. pose proof (decode_continuation _ _ xs x toks Nx T) as D. split.
  - rewrite D. reflexivity.
  - cbn [map wordpiece_decode concat]. rewrite D, V. pose proof (strip_prefix_spec (w_prefix m) x) as S.
    destruct (strip_prefix (w_prefix m) x) as [y|]; [|reflexivity]. exfalso. apply (P (y ++ concat xs)). rewrite <- C. cbn [concat]. rewrite S at 1. rewrite <- app_assoc. reflexivity.
Qed.

Lemma decode_words m ws : Forall (good_word m) ws -> ws <> [] -> exists tokss, Forall2 (fun w toks => wp_tokenize m w = Ok toks) ws tokss /\
  concat (wordpiece_decode (w_prefix m) false true (map t_value (concat tokss))) = join_spaces ws.
Proof.
  intros F N. destruct ws as [|w ws]; [congruence|]. inversion F as [|? ? F1 F2]; subst.
  assert (R : exists tokss, Forall2 (fun w toks => wp_tokenize m w = Ok toks) ws tokss /\
    concat (wordpiece_decode (w_prefix m) false false (map t_value (concat tokss))) = flat_map (fun w : str => 32%N :: w) ws).
  { clear -F2. induction F2 as [|w ws H _ (tokss & E & D)]; [exists []; split; [constructor|reflexivity]|].
    destruct (decode_word m w H) as (t & toks & E1 & _ & D2). exists ((t :: toks) :: tokss). split; [constructor; assumption|].
    cbn [concat]. rewrite map_app, wordpiece_rest_app, D2, D. reflexivity. }
  destruct R as (tokss & E & D). destruct (decode_word m w F1) as (t & toks & E1 & D1 & _). exists ((t :: toks) :: tokss). split; [constructor; assumption|].
  cbn [concat map app wordpiece_decode]. rewrite map_app, wordpiece_rest_app, app_assoc, D1, D. clear. revert w. induction ws as [|v ws IH]; intros w.
  - cbn. apply app_nil_r.
  - cbn [flat_map join_spaces app]. f_equal. f_equal. rewrite (IH v). reflexivity.
Qed.
