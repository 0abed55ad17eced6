(** Proofs about the pre-tokenizers: fixed length, scripts, words. *)
From Coq Require Import ZArith.
From Verif Require Import Base ListFacts StrBytes Utf8 PatternModel PatternSpec PatternProofs EncodingModel NormModel NormSpec NormProofs NormProofs3 NormProofs4 NormProofs6 NormProps
  ByteLevelModel DecodersModel DecodersSpec DecodersProofs2 DecodersProofs3 PreTokSpec PreTokProofs PreTokProps EndToEndSpec EndToEndProofs EndToEndProps PreTokenizersModel PreTokenizersSpec PreTokModel
  PreTokenizersProofs PreTokenizersProofs2.

(** ** Closures that slice along segments *)
Lemma segs_closure (f : nat -> nstring -> res unit (list split)) (R : str -> list str -> Prop) :
  (forall i ns, n_normalized ns = [] -> f i ns = Ok [] /\ R [] []) ->
  (forall i ns, aligned ns -> n_normalized ns <> [] ->
     exists ms segs b, covers_text ms segs (n_normalized ns) /\ f i ns = (let! l := n_split ns ms b in Ok (plain_splits l)) /\
       R (n_normalized ns) (nonempty_parts (spec_split b segs))) ->
  closure_ok f R.
Proof.
  intros H0 H. split.
  - intros i ns L. destruct (n_normalized ns) as [|c s] eqn:E.
    + destruct (H0 i ns E) as [-> HR]. exists []. split; [reflexivity|]. split; [constructor|exact HR].
    + rewrite <- E. destruct (H i ns (proj1 L)) as (ms & segs & b & C & -> & HR); [rewrite E; discriminate|].
      destruct (split_live ns ms segs b L C) as (pieces & -> & M & F). cbn [bind]. eexists. split; [reflexivity|]. split; [apply keep_plain_Forall; exact F|].
      unfold texts. rewrite keep_nonempty_texts, M. exact HR.
  - intros i ns new sp A E Hin Hne. destruct (n_normalized ns) as [|c s] eqn:En.
    + destruct (H0 i ns En) as [H1 _]. rewrite H1 in E. injection E as <-. destruct Hin.
    + destruct (H i ns A) as (ms & segs & b & C & H1 & _); [rewrite En; discriminate|]. rewrite H1 in E. apply bind_ok in E. destruct E as (l & E & X). injection X as <-.
      unfold plain_splits in Hin. apply in_map_iff in Hin. destruct Hin as (q & <- & Hq). cbn [sp_norm] in *.
      eapply split_stays; eauto. apply same_stays; [exact A|split; reflexivity].
Qed.

(** ** Fixed length *)
Lemma chunks_spec n : n <> 0 -> forall (l cur : str), length cur < n -> chunks_of n (cur ++ l) (chunks n cur l) /\ Forall (fun x => x <> []) (chunks n cur l).
Proof.
  intros Hn. induction l as [|x l IH]; intros cur L; cbn [chunks].
  - rewrite app_nil_r. destruct cur as [|c cur]; cbn [is_nil]; [split; constructor|]. split; [apply ck_last; cbn [length] in *; lia|].
    constructor; [discriminate|constructor].
  - assert (E : cur ++ x :: l = (cur ++ [x]) ++ l) by (rewrite <- app_assoc; reflexivity). rewrite E.
    assert (L' : length (cur ++ [x]) = length cur + 1) by (rewrite app_length; reflexivity).
    destruct (length (cur ++ [x]) =? n) eqn:En.
    + apply Nat.eqb_eq in En. destruct (IH []) as [I1 I2]; [cbn; lia|]. split; [apply ck_full; assumption|]. constructor; [destruct cur; discriminate|exact I2].
    + apply Nat.eqb_neq in En. apply IH. lia.
Qed.

Lemma char_indices_app k a b : char_indices k (a ++ b) = char_indices k a ++ char_indices (k + blen a) b.
Proof.
  revert k. induction a as [|c a IH]; intros k; cbn [app char_indices blen]; [rewrite Nat.add_0_r; reflexivity|]. rewrite IH, Nat.add_assoc. reflexivity.
Qed.
Lemma char_indices_length k s : length (char_indices k s) = length s.
Proof. revert k. induction s as [|c s IH]; intros k; [reflexivity|]. cbn [char_indices length]. rewrite IH. reflexivity. Qed.

Lemma chunk_range_eq len k x : x <> [] -> chunk_range len (char_indices k x) = (k, k + blen x).
Proof.
  intros N. unfold chunk_range. f_equal; [destruct x; [congruence|reflexivity]|]. destruct (exists_last N) as (y & c & ->).
  rewrite char_indices_app, rev_app_distr, blen_app. cbn. lia.
Qed.

Lemma chunk_ranges n len : n <> 0 -> forall (l cur : str) k, length cur < n ->
  map (chunk_range len) (chunks n (char_indices k cur) (char_indices (k + blen cur) l)) =
  map fst (seg_offsets len_utf8 k (map (fun x => (x, true)) (chunks n cur l))).
Proof.
  intros Hn. induction l as [|c l IH]; intros cur k L; cbn [chunks char_indices].
  - destruct cur as [|x cur]; [reflexivity|]. cbn [char_indices is_nil]. cbn [map]. rewrite seg_offsets_cons. cbn [map fst seg_offsets].
    change ((k, x) :: char_indices (k + len_utf8 x) cur) with (char_indices k (x :: cur)). rewrite chunk_range_eq by discriminate. reflexivity.
  - assert (E : char_indices k cur ++ [(k + blen cur, c)] = char_indices k (cur ++ [c])) by (rewrite char_indices_app; reflexivity). rewrite E.
    rewrite char_indices_length. assert (L' : length (cur ++ [c]) = length cur + 1) by (rewrite app_length; reflexivity).
    assert (B : k + blen cur + len_utf8 c = k + blen (cur ++ [c])) by (rewrite blen_app; cbn [blen]; lia). rewrite B.
    destruct (length (cur ++ [c]) =? n) eqn:En.
    + cbn [map]. rewrite seg_offsets_cons. cbn [map fst]. rewrite chunk_range_eq by (destruct cur; discriminate). f_equal.
      specialize (IH [] (k + blen (cur ++ [c]))). cbn [char_indices blen length] in IH. rewrite Nat.add_0_r in IH. apply IH. lia.
    + apply Nat.eqb_neq in En. apply IH. lia.
Qed.

Lemma slices_split ns l pieces : map_res (expect_slice ns) l = Ok pieces -> map_res (fun o => n_slice ns (rn (fst o) (snd o))) l = Ok pieces.
Proof.
  revert pieces. induction l as [|o l IH]; intros pieces H; cbn [map_res] in *; [exact H|]. apply bind_ok in H. destruct H as (p & H1 & H). apply bind_ok in H. destruct H as (ps & H2 & H).
  unfold expect_slice in H1. destruct (n_slice ns _) eqn:E; try discriminate. injection H1 as ->. cbn [bind]. rewrite (IH ps H2). exact H.
Qed.

Lemma map_fst_true (l : list str) : map fst (map (fun x => (x, true)) l) = l.
Proof. rewrite map_map. cbn [fst]. apply map_id. Qed.
Lemma chunks_of_concat n s ps : chunks_of n s ps -> concat ps = s.
Proof. induction 1; [reflexivity|cbn; apply app_nil_r|]. cbn [concat]. congruence. Qed.

Lemma fixed_closure n : n <> 0 -> closure_ok (fixed_one n) (chunks_of n).
Proof.
  intros Hn. apply segs_closure.
  - intros i ns E. unfold fixed_one. rewrite E. split; [reflexivity|constructor].
  - intros i ns A N. set (s := n_normalized ns) in *. destruct (chunks_spec n Hn s [] ltac:(cbn; lia)) as [Ck Fk]. cbn [app] in Ck.
    set (segs := map (fun x => (x, true)) (chunks n [] s)).
    assert (C : covers_text (seg_offsets len_utf8 0 segs) segs s).
    { split; [|reflexivity]. unfold segs. rewrite map_fst_true. symmetry. eapply chunks_of_concat; eauto. }
    exists (seg_offsets len_utf8 0 segs), segs, Isolated. split; [exact C|]. split.
    + assert (NB : is_nil s = false) by (destruct s; [congruence|reflexivity]). unfold fixed_one. fold s. rewrite NB.
      destruct (Nat.eqb_spec n 0); [congruence|].
      destruct (C15_split ns _ segs Isolated A C) as (pieces & _ & E & _). rewrite E. unfold n_split in E. cbn [split_offsets] in E. apply slices_split in E.
      pose proof (chunk_ranges n (blen s) Hn s [] 0 ltac:(cbn; lia)) as R. cbn [char_indices blen Nat.add] in R. rewrite R. fold segs. rewrite E. reflexivity.
    + cbn [spec_split]. unfold spec_isolated, segs. rewrite map_fst_true, nonempty_parts_id by exact Fk. exact Ck.
Qed.

(** ** Scripts *)
Lemma script_eqb_eq a b : script_eqb a b = true <-> a = b.
Proof. destruct a, b; cbn [script_eqb]; split; intros H; try discriminate; try reflexivity; try congruence. - apply N.eqb_eq in H. congruence. - injection H as ->. apply N.eqb_refl. Qed.

Lemma fixed_script_of T c : script_of T c (fixed_script T c).
Proof.
  unfold fixed_script. destruct (N.eqb_spec c 0x30FC) as [->|N1]; [apply so_han; left; reflexivity|].
  destruct (N.eqb_spec c 32) as [->|N2]; [apply so_space; reflexivity|].
  destruct (get_script T c) eqn:E; try (apply so_han; right; rewrite E; auto; fail); rewrite <- E; (apply so_own; [|exact N2]); intros [H|[_ H]]; try congruence;
    rewrite E in H; destruct H as [H|[H|H]]; discriminate.
Qed.
Lemma script_of_unique T c k : script_of T c k -> k = fixed_script T c.
Proof.
  unfold fixed_script. intros [H|H|H N].
  - destruct (N.eqb_spec c 0x30FC) as [E|N1]; [reflexivity|]. destruct H as [H|[N H]]; [congruence|]. destruct (N.eqb_spec c 32); [congruence|].
    destruct H as [H|[H|H]]; rewrite H; reflexivity.
  - subst c. reflexivity.
  - destruct (N.eqb_spec c 0x30FC) as [->|N1]; [exfalso; apply H; left; reflexivity|]. destruct (N.eqb_spec c 32); [congruence|].
    destruct (get_script T c) eqn:E; try reflexivity; exfalso; apply H; right; rewrite E; auto.
Qed.

(** The pieces as the loop sees them: [cur] is the piece being read. *)
Fixpoint script_loop (T : tables) (last : option script) (cur s : str) : list str :=
  match s with
  | [] => [cur]
  | c :: s' =>
      let sc := fixed_script T c in
      let last' := if negb (script_eqb sc ScAny) then Some sc else last in
      if negb (script_eqb sc ScAny) && differs last ScAny && differs last sc then cur :: script_loop T last' [c] s'
      else script_loop T last' (cur ++ [c]) s'
  end.

Lemma script_loop_concat T : forall s last cur, concat (script_loop T last cur s) = cur ++ s.
Proof.
  induction s as [|c s IH]; intros last cur; cbn [script_loop]; [cbn; rewrite !app_nil_r; reflexivity|].
  destruct (_ && _ && _); cbn [concat]; rewrite IH; [reflexivity|]. rewrite <- app_assoc. reflexivity.
Qed.

Lemma script_loop_windows T : forall s last cur k,
  windows2 (k :: script_starts T last (k + blen cur) s ++ [k + blen cur + blen s]) =
  map fst (seg_offsets len_utf8 k (map (fun x => (x, false)) (script_loop T last cur s))).
Proof.
  induction s as [|c s IH]; intros last cur k; cbn [script_starts script_loop].
  - cbn [app windows2 map]. rewrite seg_offsets_cons. cbn [blen seg_offsets map fst]. rewrite Nat.add_0_r. reflexivity.
  - destruct (_ && _ && _).
    + cbn [app map]. rewrite seg_offsets_cons. cbn [map fst]. set (l := if negb (script_eqb (fixed_script T c) ScAny) then Some (fixed_script T c) else last).
      specialize (IH l [c] (k + blen cur)). cbn [blen] in IH |- *. rewrite Nat.add_0_r in IH. rewrite Nat.add_assoc. change (windows2 (k :: ?a :: ?r)) with ((k, a) :: windows2 (a :: r)).
      f_equal. exact IH.
    + cbn [app]. specialize (IH (if negb (script_eqb (fixed_script T c) ScAny) then Some (fixed_script T c) else last) (cur ++ [c]) k). rewrite blen_app in IH. cbn [blen] in IH |- *.
      rewrite Nat.add_0_r, !Nat.add_assoc in *. exact IH.
Qed.

(** In a piece that began with [c0]. *)
Lemma script_loop_pieces T : forall s c0 x prev, fixed_script T c0 <> ScAny -> prev <> Some (fixed_script T c0) ->
  Forall (fun d => script_of T d ScAny \/ script_of T d (fixed_script T c0)) x ->
  script_pieces T prev (c0 :: x ++ s) (script_loop T (Some (fixed_script T c0)) (c0 :: x) s).
Proof.
  induction s as [|c s IH]; intros c0 x prev NA NP F; cbn [script_loop].
  - apply sp_piece with (k := fixed_script T c0); auto; [apply fixed_script_of|constructor].
  - pose proof (fixed_script_of T c) as SC. destruct (script_eqb (fixed_script T c) ScAny) eqn:E1; cbn [negb andb].
    + apply script_eqb_eq in E1. rewrite E1 in SC. replace (c0 :: x ++ c :: s) with (c0 :: (x ++ [c]) ++ s) by (rewrite <- app_assoc; reflexivity).
      apply (IH c0 (x ++ [c]) prev); auto. apply Forall_app. split; [exact F|]. constructor; [left; exact SC|constructor].
    + assert (NC : fixed_script T c <> ScAny) by (intros X; rewrite X in E1; discriminate).
      assert (D : differs (Some (fixed_script T c0)) ScAny = true).
      { cbn [differs]. destruct (script_eqb (fixed_script T c0) ScAny) eqn:E2; [|reflexivity]. apply script_eqb_eq in E2. contradiction. }
      rewrite D. cbn [andb differs]. destruct (script_eqb (fixed_script T c0) (fixed_script T c)) eqn:E2; cbn [negb].
      * apply script_eqb_eq in E2. rewrite <- E2. replace (c0 :: x ++ c :: s) with (c0 :: (x ++ [c]) ++ s) by (rewrite <- app_assoc; reflexivity).
        apply (IH c0 (x ++ [c]) prev); auto. apply Forall_app. split; [exact F|]. constructor; [right; rewrite E2; exact SC|constructor].
      * apply sp_piece with (k := fixed_script T c0); auto; [apply fixed_script_of|]. apply (IH c []); auto.
        intros X. injection X as X. rewrite X in E2. assert (Y : script_eqb (fixed_script T c) (fixed_script T c) = true) by (apply script_eqb_eq; reflexivity). congruence.
Qed.

(** Before the first character with a script. *)
Lemma script_loop_lead T : forall s cur, exists lead rest ps, s = lead ++ rest /\ Forall (fun c => script_of T c ScAny) lead /\
  script_pieces T None rest ps /\ script_loop T None cur s = (cur ++ lead) :: ps /\
  script_starts T None (blen cur) s ++ [blen cur + blen s] =
    (match ps with [] => [] | _ => script_starts T None (blen cur + blen lead) rest end) ++ [blen cur + blen s] /\
  (ps <> [] -> exists c r, rest = c :: r /\ fixed_script T c <> ScAny).
Proof.
  induction s as [|c s IH]; intros cur.
  - exists [], [], []. cbn [script_loop]. rewrite (app_nil_r cur). split; [reflexivity|]. split; [constructor|]. split; [constructor|]. split; [reflexivity|]. split; [reflexivity|congruence].
  - cbn [script_loop]. pose proof (fixed_script_of T c) as SC. destruct (script_eqb (fixed_script T c) ScAny) eqn:E1; cbn [negb andb].
    + destruct (IH (cur ++ [c])) as (lead & rest & ps & -> & F & P & E & W & NE). apply script_eqb_eq in E1. exists (c :: lead), rest, ps.
      split; [reflexivity|]. split; [constructor; [rewrite E1 in SC; exact SC|exact F]|]. split; [exact P|]. split; [rewrite E, <- app_assoc; reflexivity|].
      split; [|exact NE]. cbn [script_starts]. rewrite E1. cbn [script_eqb negb andb app]. rewrite blen_app in W. cbn [blen] in W |- *.
      rewrite ?Nat.add_0_r, ?Nat.add_assoc in *. exact W.
    + assert (NC : fixed_script T c <> ScAny) by (intros X; rewrite X in E1; discriminate). cbn [differs].
      exists [], (c :: s), (script_loop T (Some (fixed_script T c)) [c] s). split; [reflexivity|]. split; [constructor|].
      split; [apply (script_loop_pieces T s c []); [exact NC|discriminate|constructor]|]. rewrite app_nil_r. split; [reflexivity|].
      assert (NN : script_loop T (Some (fixed_script T c)) [c] s <> []).
      { intros X. pose proof (script_loop_concat T s (Some (fixed_script T c)) [c]) as Y. rewrite X in Y. discriminate. }
      split; [|intros _; eauto]. cbn [blen]. rewrite Nat.add_0_r. destruct (script_loop T (Some (fixed_script T c)) [c] s); [congruence|reflexivity].
Qed.

Lemma script_pieces_nonempty T prev s ps : script_pieces T prev s ps -> Forall (fun x => x <> []) ps.
Proof. induction 1; constructor; auto. discriminate. Qed.
Lemma script_pieces_concat T prev s ps : script_pieces T prev s ps -> concat ps = s.
Proof. induction 1 as [|prev c k x s ps _ _ _ _ _ IH]; [reflexivity|]. cbn [concat app]. rewrite IH. reflexivity. Qed.

Lemma removed_false (l : list str) : spec_removed (map (fun x => (x, false)) l) = l.
Proof. unfold spec_removed. induction l as [|x l IH]; [reflexivity|]. cbn [map filter snd negb fst]. f_equal. exact IH. Qed.
Lemma filter_seg_false k (l : list str) :
  filter (fun m : (nat * nat) * bool => negb (snd m)) (seg_offsets len_utf8 k (map (fun x => (x, false)) l)) = seg_offsets len_utf8 k (map (fun x => (x, false)) l).
Proof. revert k. induction l as [|x l IH]; intros k; [reflexivity|]. cbn [map]. rewrite seg_offsets_cons. cbn [filter snd negb]. f_equal. apply IH. Qed.

Lemma script_ranges T s : exists lead ps, s = lead ++ concat ps /\ script_runs T s ps /\ Forall (fun x => x <> []) ps /\
  windows2 (script_starts T None 0 s ++ [blen s]) =
  map fst (filter (fun m : (nat * nat) * bool => negb (snd m)) (seg_offsets len_utf8 0 ((lead, true) :: map (fun x => (x, false)) ps))).
Proof.
  destruct (script_loop_lead T s []) as (lead & rest & ps & E & F & P & EL & W & NE). exists lead, ps.
  split; [rewrite (script_pieces_concat _ _ _ _ P); exact E|]. split; [exists lead, rest; auto|]. split; [eapply script_pieces_nonempty; eauto|].
  rewrite seg_offsets_cons. cbn [filter snd negb]. rewrite filter_seg_false. cbn [blen Nat.add] in *. rewrite W. destruct ps as [|p ps].
  - cbn. reflexivity.
  - destruct (NE ltac:(discriminate)) as (c & r & -> & NC). pose proof P as P0. cbn [script_starts].
    assert (E1 : script_eqb (fixed_script T c) ScAny = false).
    { destruct (script_eqb (fixed_script T c) ScAny) eqn:X; [|reflexivity]. apply script_eqb_eq in X. contradiction. }
    rewrite E1. cbn [negb andb differs app].
    (* the same loop started at the first script character *)
    pose proof (script_loop_windows T r (Some (fixed_script T c)) [c] (blen lead)) as X. cbn [blen] in X. rewrite Nat.add_0_r in X.
    assert (EB : blen s = blen lead + len_utf8 c + blen r) by (rewrite E, blen_app; cbn [blen]; lia). rewrite EB, X. f_equal. f_equal. f_equal.
    clear -EL E E1 F. subst s. change lead with ([] ++ lead) in EL at 2.
    assert (G : forall cur, script_loop T None cur (lead ++ c :: r) = (cur ++ lead) :: p :: ps -> script_loop T (Some (fixed_script T c)) [c] r = p :: ps);
      [|exact (G [] EL)].
    clear EL. induction F as [|d lead Hd _ IH]; intros cur EL.
    + cbn [app script_loop] in EL. rewrite E1 in EL. cbn [negb andb differs] in EL. injection EL as _ EL. exact EL.
    + cbn [app script_loop] in EL. apply script_of_unique in Hd. rewrite <- Hd in EL. cbn [script_eqb negb andb] in EL.
      apply (IH (cur ++ [d])). rewrite <- app_assoc. exact EL.
Qed.

Lemma scripts_closure T : closure_ok (scripts_one T) (script_runs T).
Proof.
  apply segs_closure.
  - intros i ns E. unfold scripts_one. rewrite E. split; [reflexivity|]. exists [], []. split; [reflexivity|]. split; constructor.
  - intros i ns A N. destruct (script_ranges T (n_normalized ns)) as (lead & ps & E & R & NE & W).
    exists (seg_offsets len_utf8 0 ((lead, true) :: map (fun x => (x, false)) ps)), ((lead, true) :: map (fun x => (x, false)) ps), Removed.
    split; [split; [|reflexivity]|].
    + cbn [map fst concat]. rewrite map_map. cbn [fst]. rewrite map_id. exact E.
    + split; [unfold scripts_one, n_split; cbn [split_offsets]; rewrite W; reflexivity|]. cbn [spec_split].
      replace (spec_removed _) with ps; [rewrite nonempty_parts_id by exact NE; exact R|]. symmetry. apply (removed_false ps).
Qed.

(** ** Punctuation *)
Lemma is_punc_spec T c : is_punc T c = true <-> punctuation T c.
Proof.
  unfold is_punc, punctuation. rewrite Bool.orb_true_iff. assert (X : is_ascii_punct c = true <-> In c [33; 34; 35; 36; 37; 38; 39; 40; 41; 42; 43; 44; 45; 46; 47; 58; 59; 60; 61; 62; 63; 64;
        91; 92; 93; 94; 95; 96; 123; 124; 125; 126]%N); [|tauto].
  unfold is_ascii_punct. cbn [In]. lia.
Qed.

(** ** All pre-tokenizers *)
Lemma pass_id : pass_ok (fun pt => Ok pt) (fun s ps => ps = [s]).
Proof.
  intros s pt I L. exists pt, (map (fun sp => [sp]) (pt_splits pt)). split; [reflexivity|]. split; [exact I|]. split; [exact L|]. split.
  - clear. induction (pt_splits pt) as [|a l IH]; [reflexivity|]. cbn [map concat app]. f_equal. exact IH.
  - clear. induction (pt_splits pt) as [|a l IH]; [constructor|]. cbn [map]. constructor; [|exact IH]. unfold group. destruct (sp_tokens a) eqn:E; [reflexivity|].
    split; [constructor; [exact E|constructor]|reflexivity].
Qed.

Lemma pre_pass (T : tables) (HT : sane T) : forall p, usable p -> pass_ok (pre_tokenize T p) (pieces_of T p).
Proof.
  fix IHp 1. intros p. pose proof HT as [HW HG]. destruct p as [|aps ur|c|rep scheme ds| |l|find b inv|b| |ind| |n]; intros U.
  - pose proof (seq_pass _ _ _ _ (split_pass _ _ (pred_closure (is_ws T) Removed)) (split_pass _ _ (pred_closure (is_punc T) Isolated))) as H.
    eapply pass_weaken; [|exact H]. intros s ps (ms & gs & R & F & ->). exists ms, gs. split; [exact R|]. split; [|reflexivity].
    clear -F. induction F as [|x y l l' E _ IH]; constructor; [|exact IH]. exists (is_punc T). split; [apply is_punc_spec|exact E].
  - apply (byte_pass (gpt_re T) aps ur HG).
  - apply split_pass. apply (pred_closure (fun c' => N.eqb c' c) Removed).
  - apply split_pass, meta_closure. exact U.
  - apply split_pass. pose proof (invert_closure (word_re T) Removed HW) as [H1 H2]. split; [|exact H2]. intros i ns L.
    destruct (H1 i ns L) as (new & E & F & segs & S & X). exists new. split; [exact E|]. split; [exact F|]. exists segs. split; [exact S|].
    rewrite X. cbn [spec_split]. rewrite removed_flipped. reflexivity.
  - cbn [pre_tokenize pieces_of usable] in *. revert U. induction l as [|p l IH]; intros U.
    + apply pass_id.
    + destruct U as [U1 U2]. exact (seq_pass _ _ _ _ (IHp p U1) (IH U2)).
  - cbn [pre_tokenize pieces_of usable] in *. destruct inv.
    + apply split_pass. apply (invert_closure find b U).
    + apply split_pass. apply (regex_closure find b U).
  - apply split_pass. pose proof (pred_closure (is_punc T) b) as [H1 H2]. split; [|exact H2]. intros i ns L. destruct (H1 i ns L) as (new & E & F & R).
    exists new. split; [exact E|]. split; [exact F|]. exists (is_punc T). split; [apply is_punc_spec|exact R].
  - apply split_pass. apply (pred_closure (is_ws T) Removed).
  - cbn [pre_tokenize pieces_of]. destruct ind; apply split_pass; apply pred_closure.
  - apply split_pass. apply scripts_closure.
  - apply split_pass. apply fixed_closure. exact U.
Qed.

(** ** Words *)
Lemma boundary_here (a b : str) : is_boundary (a ++ b) (blen a) = true.
Proof. apply is_boundary_spec. exists a, b. auto. Qed.
Section words.
  Variables (word space : char -> bool).
  Let cls := re_class word space.
  Let wm := word_matches word space.

  Definition gap_seg (g : str) : list (str * bool) := if is_nil g then [] else [(g, false)].
  (** The segments; [run] tells whether [cur] is a run, and of which class. *)
  Fixpoint word_segs (run : option bool) (cur s : str) : list (str * bool) :=
    match run, s with
    | None, [] => gap_seg cur
    | Some _, [] => [(cur, true)]
    | None, c :: s' =>
        match cls c with
        | None => word_segs None (cur ++ [c]) s'
        | Some k => gap_seg cur ++ word_segs (Some k) [c] s'
        end
    | Some k, c :: s' =>
        match cls c with
        | None => (cur, true) :: word_segs None [c] s'
        | Some k' => if Bool.eqb k' k then word_segs (Some k) (cur ++ [c]) s' else (cur, true) :: word_segs (Some k') [c] s'
        end
    end.

  Lemma word_segs_concat : forall s run cur, concat (map fst (word_segs run cur s)) = cur ++ s.
  Proof using word space.
    assert (G : forall g, concat (map fst (gap_seg g)) = g) by (intros [|c g]; [reflexivity|cbn; rewrite app_nil_r; reflexivity]).
    induction s as [|c s IH]; intros run cur; cbn [word_segs].
    - rewrite app_nil_r. destruct run; [cbn; apply app_nil_r|apply G].
    - destruct run as [k|].
      + destruct (cls c) as [k'|]; [destruct (Bool.eqb k' k)|]; cbn [map fst concat]; rewrite IH; rewrite <- ?app_assoc; reflexivity.
      + destruct (cls c) as [k'|]; [rewrite map_app, concat_app, G, IH; reflexivity|]. rewrite IH, <- app_assoc. reflexivity.
  Qed.

  Lemma word_matches_head : forall s st k pos, exists e r, wm (Some (st, k)) pos s = (st, e) :: r.
  Proof using word space.
    induction s as [|c s IH]; intros st k pos; unfold wm; cbn [word_matches]; [eauto|]. destruct (re_class word space c) as [k'|]; [|cbn; eauto].
    destruct (Bool.eqb k' k); [apply IH|cbn; eauto].
  Qed.

  Lemma single_ne (c : char) : [c] <> [].
  Proof using. discriminate. Qed.

  Lemma word_segs_offsets : forall s run cur prev, cur <> [] \/ run = None ->
    regex_loop (prev + blen cur + blen s) prev (wm (match run with Some k => Some (prev, k) | None => None end) (prev + blen cur) s) =
    seg_offsets len_utf8 prev (word_segs run cur s).
  Proof using word space.
    assert (BN : forall x : str, x <> [] -> blen x <> 0).
    { intros [|c x] H; [congruence|]. cbn [blen]. pose proof (len_utf8_pos c). lia. }
    assert (GO : forall (g : str) prev l, seg_offsets len_utf8 prev (gap_seg g ++ l) =
       (if prev =? prev + blen g then [] else [((prev, prev + blen g), false)]) ++ seg_offsets len_utf8 (prev + blen g) l).
    { intros g prev l. destruct g as [|c g].
      - cbn [gap_seg is_nil app blen]. rewrite Nat.add_0_r, Nat.eqb_refl. reflexivity.
      - unfold gap_seg. cbn [is_nil app]. rewrite seg_offsets_cons. pose proof (BN (c :: g) ltac:(discriminate)). destruct (Nat.eqb_spec prev (prev + blen (c :: g))); [lia|reflexivity]. }
    induction s as [|c s IH]; intros run cur prev D; cbn [word_segs].
    - cbn [blen]. rewrite Nat.add_0_r. destruct run as [k|]; unfold wm; cbn [word_matches].
      + cbn [regex_loop]. rewrite !Nat.eqb_refl, seg_offsets_cons. reflexivity.
      + cbn [regex_loop]. specialize (GO cur prev []). rewrite app_nil_r in GO. rewrite GO. cbn [seg_offsets]. rewrite app_nil_r. reflexivity.
    - assert (L : forall a, a + blen (c :: s) = a + len_utf8 c + blen s) by (intros; cbn [blen]; lia). rewrite L.
      destruct run as [k|].
      + destruct D as [D|D]; [|discriminate]. unfold wm. cbn [word_matches]. fold (cls c). destruct (cls c) as [k'|].
        * destruct (Bool.eqb k' k).
          -- assert (NC : cur ++ [c] <> []) by (intros X; apply app_eq_nil in X; destruct X; discriminate).
             specialize (IH (Some k) (cur ++ [c]) prev (or_introl NC)). rewrite blen_app in IH. cbn [blen] in IH. rewrite Nat.add_0_r, Nat.add_assoc in IH. exact IH.
          -- cbn [app regex_loop]. rewrite Nat.eqb_refl, seg_offsets_cons. cbn [app]. f_equal.
             specialize (IH (Some k') [c] (prev + blen cur) (or_introl (single_ne c))). cbn [blen] in IH. rewrite Nat.add_0_r in IH. exact IH.
        * cbn [app regex_loop]. rewrite Nat.eqb_refl, seg_offsets_cons. cbn [app]. f_equal.
          specialize (IH None [c] (prev + blen cur) (or_intror eq_refl)). cbn [blen] in IH. rewrite Nat.add_0_r in IH. exact IH.
      + unfold wm. cbn [word_matches]. fold (cls c). destruct (cls c) as [k'|].
        * rewrite GO. specialize (IH (Some k') [c] (prev + blen cur) (or_introl (single_ne c))). cbn [blen] in IH. rewrite Nat.add_0_r in IH. rewrite <- IH.
          destruct (word_matches_head s (prev + blen cur) k' (prev + blen cur + len_utf8 c)) as (e & r & E). unfold wm in *. rewrite E. cbn [regex_loop]. rewrite Nat.eqb_refl. reflexivity.
        * specialize (IH None (cur ++ [c]) prev (or_intror eq_refl)). rewrite blen_app in IH. cbn [blen] in IH. rewrite Nat.add_0_r, Nat.add_assoc in IH. exact IH.
  Qed.

  Lemma word_segs_runs : forall s,
    (forall cur, class_runs cls None s (map fst (filter snd (word_segs None cur s)))) /\
    (forall k cur, cur <> [] -> Forall (fun c => cls c = Some k) cur ->
       exists u s2 us, map fst (filter snd (word_segs (Some k) cur s)) = u :: us /\ cur ++ s = u ++ s2 /\ u <> [] /\ Forall (fun c => cls c = Some k) u /\
         class_runs cls (Some k) s2 us).
  Proof using word space.
    assert (G : forall g, filter snd (gap_seg g) = []) by (intros [|c g]; reflexivity).
    induction s as [|c s [IH1 IH2]]; split; intros.
    - cbn [word_segs]. rewrite G. constructor.
    - exists cur, [], []. cbn. split; [reflexivity|]. split; [reflexivity|]. split; [assumption|]. split; [assumption|constructor].
    - cbn [word_segs]. destruct (cls c) as [k|] eqn:Ec.
      + rewrite filter_app, G. cbn [app]. destruct (IH2 k [c] ltac:(discriminate)) as (u & s2 & us & -> & E & N & F & R); [constructor; [exact Ec|constructor]|].
        cbn [app] in E. rewrite E. apply (cr_run _ _ k); auto. discriminate.
      + apply cr_drop; [exact Ec|apply IH1].
    - cbn [word_segs]. destruct (cls c) as [k'|] eqn:Ec.
      + destruct (Bool.eqb k' k) eqn:Ek.
        * apply Bool.eqb_prop in Ek. subst k'. destruct (IH2 k (cur ++ [c])) as (u & s2 & us & E1 & E2 & N & F & R); [destruct cur; discriminate|apply Forall_app; auto|].
          exists u, s2, us. rewrite <- app_assoc in E2. auto.
        * destruct (IH2 k' [c] ltac:(discriminate)) as (u & s2 & us & E1 & E2 & N & F & R); [constructor; [exact Ec|constructor]|].
          exists cur, (c :: s), (u :: us). cbn [filter snd map fst]. rewrite E1. split; [reflexivity|]. split; [reflexivity|]. split; [assumption|]. split; [assumption|].
          cbn [app] in E2. rewrite E2. apply (cr_run _ _ k'); auto. intros X. injection X as ->. rewrite Bool.eqb_reflx in Ek. discriminate.
      + exists cur, (c :: s), (map fst (filter snd (word_segs None [c] s))). cbn [filter snd map fst]. split; [reflexivity|]. split; [reflexivity|]. split; [assumption|]. split; [assumption|].
        apply cr_drop; [exact Ec|apply IH1].
  Qed.

  Lemma word_matches_engine : forall s pre cur from, from <= blen pre -> (match cur with Some (st, _) => from <= st <= blen pre /\ is_boundary (pre ++ s) st = true | None => True end) ->
    engine_matches (pre ++ s) from (wm cur (blen pre) s).
  Proof using word space.
    induction s as [|c s IH]; intros pre cur from L D; unfold wm; cbn [word_matches].
    - destruct cur as [[st k]|]; [|exact Logic.I]. cbn [engine_matches]. destruct D as [D1 D2]. split; [lia|]. split; [lia|]. split; [exact D2|]. split; [apply boundary_here|exact Logic.I].
    - assert (E : pre ++ c :: s = (pre ++ [c]) ++ s) by (rewrite <- app_assoc; reflexivity).
      assert (B : blen pre + len_utf8 c = blen (pre ++ [c])) by (rewrite blen_app; cbn [blen]; lia). rewrite B.
      assert (BD : is_boundary (pre ++ c :: s) (blen pre) = true) by apply boundary_here.
      assert (CL : forall st k, from <= st <= blen pre -> is_boundary (pre ++ c :: s) st = true -> forall k', 
        engine_matches (pre ++ c :: s) from ([(st, blen pre)] ++ wm k' (blen (pre ++ [c])) s) <-> engine_matches (pre ++ c :: s) (blen pre) (wm k' (blen (pre ++ [c])) s) /\ k = k :> bool).
      { intros st k H1 H2 k'. cbn [app engine_matches]. split; [tauto|]. intros [H _]. repeat split; auto; lia. }
      rewrite E in *. destruct (re_class word space c) as [k'|] eqn:Ec.
      + destruct cur as [[st k]|].
        * destruct D as [D1 D2]. destruct (Bool.eqb k' k).
          -- apply IH; [lia|]. split; [lia|exact D2].
          -- apply (proj2 (CL st k D1 D2 (Some (blen pre, k')))). split; [|reflexivity]. apply IH; [lia|]. split; [lia|exact BD].
        * apply IH; [lia|]. split; [lia|exact BD].
      + destruct cur as [[st k]|].
        * destruct D as [D1 D2]. apply (proj2 (CL st k D1 D2 None)). split; [|reflexivity]. apply IH; [lia|exact Logic.I].
        * cbn [app]. apply IH; [lia|exact Logic.I].
  Qed.
End words.

(** The offsets determine the segments. *)
Lemma prefix_blen (a b u v : str) : a ++ u = b ++ v -> blen a = blen b -> a = b.
Proof.
  revert b. induction a as [|c a IH]; intros [|d b] E B; try reflexivity.
  - cbn [blen] in B. pose proof (len_utf8_pos d). lia.
  - cbn [blen] in B. pose proof (len_utf8_pos c). lia.
  - cbn [app] in E. injection E as -> E. cbn [blen] in B. f_equal. apply IH; [exact E|lia].
Qed.
Lemma seg_offsets_inj : forall segs segs' k, seg_offsets len_utf8 k segs = seg_offsets len_utf8 k segs' -> concat (map fst segs) = concat (map fst segs') -> segs = segs'.
Proof.
  induction segs as [|[t f] segs IH]; intros [|[t' f'] segs'] k H C; [reflexivity|rewrite seg_offsets_cons in H; discriminate|rewrite seg_offsets_cons in H; discriminate|].
  rewrite !seg_offsets_cons in H. injection H as H1 H2 H3. cbn [map fst concat] in C. assert (B : blen t = blen t') by lia.
  pose proof (prefix_blen _ _ _ _ C B) as ->. subst f'. apply app_inv_head in C. f_equal. eapply IH; eauto.
Qed.
