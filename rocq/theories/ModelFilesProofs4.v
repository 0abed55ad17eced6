(** Proofs: models that are the same tokenize alike; files without a type; text files. *)
From Coq Require Import String.
From Verif Require Import Base StrBytes ListFacts Utf8 AMap EncodingModel BpeWordModel BpeWordSpec BpeWordProofs BpeModel BpeSpec BpeProofs BpeProps WordPieceModel UnigramModel ModelFilesModel ModelFilesSpec ModelFilesProofs ModelFilesProofs2 ModelFilesProofs3.

(** ** Same models *)
Lemma same_map_aget (a b : list (str * N)) t : same_map a b -> aget str_eqb t b = aget str_eqb t a.
Proof.
  intros [D P]. assert (DA : NoDup (map fst a)) by (eapply Permutation_NoDup; [apply Permutation_map; apply Permutation_sym; exact P|exact D]).
  destruct (aget str_eqb t a) as [i|] eqn:E.
  - apply (in_aget _ _ _ D). apply (Permutation_in _ P). apply (in_aget _ _ _ DA). exact E.
  - apply (aget_none _ str_eqb_eq) in E. apply (aget_none _ str_eqb_eq). intros I. apply E. apply (Permutation_in _ (Permutation_map fst (Permutation_sym P))). exact I.
Qed.

Lemma same_wl_tokenize m m' s : (forall t, aget str_eqb t (l_vocab m') = aget str_eqb t (l_vocab m)) -> l_unk m' = l_unk m -> wl_tokenize m' s = wl_tokenize m s.
Proof. intros V U. unfold wl_tokenize. rewrite !V, U. reflexivity. Qed.

Section wp.
  Context (m m' : wordpiece) (V : forall t, aget str_eqb t (w_vocab m') = aget str_eqb t (w_vocab m)) (U : w_unk m' = w_unk m) (P : w_prefix m' = w_prefix m) (X : w_max m' = w_max m).
  Lemma same_wp_match f : forall s a b, wp_match f m' s a b = wp_match f m s a b.
  Proof. induction f as [|f IH]; intros s a b; [reflexivity|]. cbn [wp_match]. destruct (a <? b); [|reflexivity]. rewrite P. destruct (of_option _) as [x| |]; cbn [bind]; try reflexivity. rewrite !V. destruct (aget _ _ _); [reflexivity|]. rewrite IH. reflexivity. Qed.
  Lemma same_wp_loop f : forall s a acc, wp_loop f m' s a acc = wp_loop f m s a acc.
  Proof. induction f as [|f IH]; intros s a acc; [reflexivity|]. cbn [wp_loop]. rewrite same_wp_match. destruct (a <? blen s); [|reflexivity]. destruct (wp_match _ _ _ _ _) as [[[]|]| |]; cbn [bind]; try reflexivity. apply IH. Qed.
  Lemma same_wp_tokenize s : wp_tokenize m' s = wp_tokenize m s.
  Proof. unfold wp_tokenize, wp_unknown. rewrite X, U, V, same_wp_loop. reflexivity. Qed.
End wp.

Section bpe.
  Context (pop : list merge -> option (merge * list merge)).
  Lemma same_queue mg mg' : (forall a b : N, mg' a b = mg a b) -> forall w i, initial_queue mg' i w = initial_queue mg i w.
  Proof. intros L w. induction w as [|a w IH]; intros i; [reflexivity|]. cbn [initial_queue]. destruct w; [reflexivity|]. rewrite L, IH. reflexivity. Qed.
  Lemma same_process mg mg' top w : (forall a b : N, mg' a b = mg a b) -> process mg' top w = process mg top w.
  Proof.
    intros L. unfold process, new_entry. destruct (of_option _) as [s| |]; cbn [bind]; try reflexivity. destruct (sy_len s =? 0); [reflexivity|]. destruct (sy_next s); [|reflexivity].
    destruct (of_option (nth_error w n)) as [rs| |]; cbn [bind]; try reflexivity. rewrite L. destruct (match mg _ _ with Some _ => _ | None => _ end); [reflexivity|].
    destruct (of_option _) as [cur| |]; cbn [bind]; try reflexivity. destruct (sy_prev cur) as [p|]; cbn [bind].
    - destruct (of_option (nth_error _ p)) as [ps| |]; cbn [bind]; try reflexivity. rewrite L. destruct (sy_next cur) as [nx|]; cbn [bind]; [|reflexivity].
      destruct (nx <? _); cbn [bind]; [|reflexivity]. destruct (of_option (nth_error _ nx)) as [ns| |]; cbn [bind]; try reflexivity. rewrite L. reflexivity.
    - destruct (sy_next cur) as [nx|]; cbn [bind]; [|reflexivity].
      destruct (nx <? _); cbn [bind]; [|reflexivity]. destruct (of_option (nth_error _ nx)) as [ns| |]; cbn [bind]; try reflexivity. rewrite L. reflexivity.
  Qed.
  Lemma same_merge_all mg mg' draws w : (forall a b : N, mg' a b = mg a b) -> merge_all pop mg' draws w = merge_all pop mg draws w.
  Proof.
    intros L. unfold merge_all. rewrite (same_queue _ _ L). generalize (merge_fuel w) (initial_queue mg 0 w) (@nil merge) 0. intros f. revert w.
    assert (X : forall f w q sk k, merge_loop pop f mg' draws k w q sk = merge_loop pop f mg draws k w q sk).
    { induction f0 as [|f0 IH]; intros w q sk k; [reflexivity|]. cbn [merge_loop]. destruct (pop q) as [[top q']|]; [|reflexivity]. destruct (draws k); [apply IH|]. rewrite (same_process _ _ _ _ L).
      destruct (process mg top w) as [[w' new]| |]; cbn [bind]; try reflexivity. apply IH. }
    intros w l l0 n. rewrite X. reflexivity.
  Qed.

  Context (m m' : bpe) (I : forall t, b_id m' t = b_id m t) (T : forall i, b_token m' i = b_token m i) (L : forall a b, b_lookup m' a b = b_lookup m a b).
  Context (E1 : (b_dropout m', b_unk m', b_prefix m', b_suffix m') = (b_dropout m, b_unk m, b_prefix m, b_suffix m)) (E2 : (b_fuse m', b_fallback m', b_ignore_merges m') = (b_fuse m, b_fallback m, b_ignore_merges m)).

  Lemma same_word_loop cs : forall first w u, word_loop m' first cs w u = word_loop m first cs w u.
  Proof using I E1 E2.
    injection E1 as _ EU EP ES. injection E2 as EF EB _.
    assert (DC : forall f l s, decorate m' f l s = decorate m f l s) by (intros f l s; unfold decorate; rewrite EP, ES; reflexivity).
    assert (MO : forall l, map_opt (fun b => b_id m' (byte_token b)) l = map_opt (fun b => b_id m (byte_token b)) l) by (induction l as [|b l IH]; [reflexivity|]; cbn [map_opt]; rewrite I, IH; reflexivity).
    induction cs as [|c cs IH]; intros first w u; [reflexivity|]. cbn [word_loop]. rewrite DC, I, EB, EU, EF. destruct (b_id m _); [apply IH|].
    destruct (b_fallback m); [rewrite MO; destruct (map_opt _ _); [apply IH|]|]; (destruct (b_unk m) as [ut|]; [|apply IH]; unfold unk_id; rewrite I; destruct u as [[ui ul]|]; [destruct (b_fuse m); [apply IH|]|]; (destruct (b_id m ut); cbn [bind]; [apply IH|reflexivity])).
  Qed.
  Lemma same_merge_word draws s : merge_word pop m' draws s = merge_word pop m draws s.
  Proof using I L E1 E2.
    unfold merge_word. rewrite same_word_loop. destruct (word_loop m true s [] None) as [[w u]| |]; cbn [bind]; try reflexivity. rewrite (same_merge_all _ _ _ _ L). reflexivity.
  Qed.
  Lemma same_word_to_tokens w : word_to_tokens m' w = word_to_tokens m w.
  Proof using T. unfold word_to_tokens. generalize (combine (get_chars w) (get_offsets 0 w)). induction l as [|x l IH]; [reflexivity|]. cbn [map_res]. rewrite T, IH. reflexivity. Qed.
  Lemma same_bpe_tokenize draws s : bpe_tokenize pop m' draws s = bpe_tokenize pop m draws s.
  Proof using I T L E1 E2.
    assert (X : forall d, (let! w := merge_word pop m' d s in word_to_tokens m' w) = (let! w := merge_word pop m d s in word_to_tokens m w)).
    { intros d. rewrite same_merge_word. destruct (merge_word pop m d s); cbn [bind]; try reflexivity. apply same_word_to_tokens. }
    unfold bpe_tokenize, tokenize_plain. rewrite !X, I. injection E1 as -> _ _ _. injection E2 as _ _ ->. reflexivity.
  Qed.
End bpe.

Lemma same_bpe_maps m m' : same_bpe m m' -> (forall t, b_id m' t = b_id m t) /\ (forall i, b_token m' i = b_token m i).
Proof.
  intros (SM & ST & _). split; [intros t; apply same_map_aget; exact SM|]. intros i. destruct (b_token m i) as [t|] eqn:E; [apply ST; exact E|].
  destruct (b_token m' i) as [t|] eqn:E'; [|reflexivity]. apply ST in E'. congruence.
Qed.

(** ** Places when no merge is given twice *)
Lemma dense_place (l : list N) n : Permutation l (map N.of_nat (seq 0 n)) -> forall r, (r <= N.of_nat n)%N -> length (filter (fun x => N.ltb x r) l) = N.to_nat r.
Proof.
  intros P r R. rewrite (filter_perm_length _ _ _ P). clear l P.
  assert (X : forall n a, (r <= N.of_nat (a + n))%N -> length (filter (fun x => N.ltb x r) (map N.of_nat (seq a n))) = N.to_nat r - a).
  { clear. induction n as [|n IH]; intros a H; cbn [seq map filter]; [cbn; lia|]. destruct (N.ltb (N.of_nat a) r) eqn:E; cbn [length]; rewrite IH; lia. }
  rewrite X by exact R. lia.
Qed.

Lemma filter_map_length {A B} (g : A -> B) (f : B -> bool) l : length (filter (fun x => f (g x)) l) = length (filter f (map g l)).
Proof. induction l as [|x l IH]; [reflexivity|]. cbn. destruct (f (g x)); cbn; lia. Qed.

Lemma nodup_place vocab merges prefix m : built vocab merges prefix m -> writable vocab -> NoDup merges ->
  forall a b r n, b_lookup m a b = Some (r, n) -> place m r = r.
Proof.
  intros B WR DM a b r n H. pose proof B as B0. destruct B0 as [_ (d & unk & sf & fu & fb & ig & BB)]. assert (AC : acceptable vocab prefix merges) by (eapply build_accepts; eauto).
  assert (PR : Permutation (map (fun e => fst (snd e)) (b_merges m)) (map N.of_nat (seq 0 (length merges)))).
  { apply NoDup_Permutation; [eapply table_ranks; eassumption|apply FinFun.Injective_map_NoDup; [intros x y E; lia|apply seq_NoDup]|]. intros x. rewrite !in_map_iff. split.
    - intros (e & <- & I). destruct (entry_merge _ _ _ _ B e I) as (j & ta & tb & t & N1 & E & _). exists j. split; [auto|]. apply in_seq. apply nth_error_Some_length in N1 || (assert (j < length merges) by (apply nth_error_Some; congruence)); lia.
    - intros (j & <- & I). apply in_seq in I. destruct (nth_error merges j) as [[ta tb]|] eqn:N1; [|apply nth_error_None in N1; lia].
      destruct (AC ta tb (nth_error_In _ _ N1)) as (A1 & B1 & t & MT & T1). apply in_map_iff in A1, B1, T1. destruct A1 as ([? ia] & EA & A1), B1 as ([? ib] & EB & B1), T1 as ([? k] & ET & T1). cbn in EA, EB, ET. subst.
      exists ((ia, ib), (N.of_nat j, k)). split; [reflexivity|]. apply (in_table _ _ _ _ B). cbn [fst snd]. apply (C36_table _ _ _ _ _ _ _ _ B). exists j. split; [reflexivity|].
      split; [exists ta, tb, t; auto|]. intros j' n' LT (a' & b' & t' & N2 & _ & A2 & B2 & _).
      pose proof (writable_id _ WR _ _ _ A1 A2). pose proof (writable_id _ WR _ _ _ B1 B2). subst a' b'.
      assert (j' = j); [|lia]. apply (proj1 (NoDup_nth_error merges) DM); [apply nth_error_Some; congruence|congruence]. }
  unfold place. rewrite (filter_map_length (fun e : (N * N) * (N * N) => fst (snd e)) (fun x => N.ltb x r)). rewrite (dense_place _ _ PR); [lia|].
  assert (I : In ((a, b), (r, n)) (b_merges m)) by (apply (in_table _ _ _ _ B); exact H). destruct (entry_merge _ _ _ _ B _ I) as (j & ta & tb & t & N1 & E & _). cbn in E.
  assert (j < length merges) by (apply nth_error_Some; congruence). lia.
Qed.

(** ** Order of the ranks *)
Lemma filter_le {A} (f g : A -> bool) l : (forall x, f x = true -> g x = true) -> length (filter f l) <= length (filter g l).
Proof. intros H. induction l as [|x l IH]; [cbn; lia|]. cbn [filter]. specialize (H x). destruct (f x), (g x); cbn; try lia; exfalso; intuition discriminate. Qed.
Lemma filter_lt {A} (f g : A -> bool) l x : (forall x, f x = true -> g x = true) -> In x l -> f x = false -> g x = true -> length (filter f l) < length (filter g l).
Proof.
  intros H I F G. apply in_split in I. destruct I as (l1 & l2 & ->). rewrite !filter_app, !app_length. cbn [filter]. rewrite F, G. cbn [length].
  pose proof (filter_le f g l1 H). pose proof (filter_le f g l2 H). lia.
Qed.

Lemma place_mono vocab merges prefix m : built vocab merges prefix m -> forall a b r n r2, b_lookup m a b = Some (r, n) -> (r < r2)%N -> (place m r < place m r2)%N.
Proof.
  intros B a b r n r2 H L. unfold place. assert (I : In ((a, b), (r, n)) (b_merges m)) by (apply (in_table _ _ _ _ B); exact H).
  assert (SUB : forall e : (N * N) * (N * N), N.ltb (fst (snd e)) r = true -> N.ltb (fst (snd e)) r2 = true) by (intros e; lia).
  pose proof (filter_lt (fun e : (N * N) * (N * N) => N.ltb (fst (snd e)) r) (fun e => N.ltb (fst (snd e)) r2) (b_merges m) _ SUB I) as X. cbn [fst snd] in X.
  assert (Y : N.ltb r r = false) by lia. assert (Z : N.ltb r r2 = true) by lia. specialize (X Y Z). lia.
Qed.

Lemma steps_mono (R R' : list (N * nat) -> list (N * nat) -> Prop) l l' : (forall x y, R x y -> R' x y) -> steps R l l' -> steps R' l l'.
Proof. intros H S1. induction S1 as [|x y z H1 _ IH]; [constructor|]. econstructor; [apply H; exact H1|exact IH]. Qed.

Lemma canonical_same vocab merges prefix m m' l out : built vocab merges prefix m -> same_bpe m m' -> canonical (b_lookup m) l out -> canonical (b_lookup m') l out.
Proof.
  intros B (_ & _ & SL & _). assert (AP : forall x k r' y, applies (b_lookup m') x k r' y <-> exists r, applies (b_lookup m) x k r y /\ r' = place m r).
  { intros x k r' y. split.
    - intros [pre a la b lb post n E1 E2 E3 E4]. apply SL in E3. destruct E3 as (r & E3 & ->). exists r. split; [econstructor; eassumption|reflexivity].
    - intros (r & [pre a la b lb post n E1 E2 E3 E4] & ->). econstructor; [exact E1|exact E2|apply SL; eauto|exact E4]. }
  intros [ST NO]. split.
  - apply (steps_mono (greedy (b_lookup m))); [|exact ST]. clear l out ST NO. intros l l' (k & r & A1 & MIN). exists k, (place m r). split; [apply AP; eauto|].
    intros k' r' l'' A2. apply AP in A2. destruct A2 as (r2 & A2 & ->). pose proof (MIN _ _ _ A2) as [L|[-> L]]; [|right; auto]. left.
    destruct A1 as [pre a la b lb post n E1 E2 E3 E4]. eapply place_mono; eassumption.
  - intros k r y A2. apply AP in A2. destruct A2 as (r2 & A2 & _). eapply NO. exact A2.
Qed.

(** ** Files without a type *)
Section missing.
  Context {W : Type} (A : arith W) (F : floats W).

  Lemma map_res_calm {X Y} (f : X -> res file_error Y) l : (forall x, f x <> Panic) -> map_res f l <> Panic.
  Proof using. intros H. induction l as [|x l IH]; [discriminate|]. cbn [map_res]. specialize (H x). destruct (f x); cbn [bind]; try congruence. destruct (map_res f l); cbn [bind]; congruence. Qed.
  Lemma as_str_calm (j : json W) : as_str j <> Panic.
  Proof using. destruct j; discriminate. Qed.
  Lemma as_map_calm (j : json W) : as_map j <> Panic.
  Proof using.
    destruct j; try discriminate. cbn [as_map]. generalize (@nil (str * N)). induction l as [|[t v] l IH]; intros m; [discriminate|]. cbn [into_map].
    destruct v; cbn [as_u32 bind]; try discriminate. destruct (N.ltb n _); cbn [bind]; [apply IH|discriminate].
  Qed.
  Lemma as_merges_calm (j : json W) : as_merge_type j <> Panic.
  Proof using.
    unfold as_merge_type. destruct (as_vec (as_pair as_str as_str) j); try discriminate; (destruct j; try discriminate; cbn [as_vec]; pose proof (map_res_calm as_str l as_str_calm); destruct (map_res as_str l); cbn [bind]; congruence).
  Qed.

  (** A field that is not there is not found. *)
  Lemma never_set {S T} (f : S -> str * json W -> res file_error S) (get : S -> option T) k :
    (forall st kv st', f st kv = Ok st' -> fst kv <> k -> get st = None -> get st' = None) -> (forall st kv, f st kv <> Panic) ->
    forall l st, ~ In k (map fst l) -> get st = None -> each_field f st l <> Panic /\ forall st', each_field f st l = Ok st' -> get st' = None.
  Proof using.
    intros H1 H2. induction l as [|kv l IH]; intros st NI G; [split; [discriminate|]; intros st' [= <-]; exact G|]. cbn [each_field map In] in *.
    pose proof (H2 st kv). destruct (f st kv) as [st1| |] eqn:E; cbn [bind]; try congruence; [|split; discriminate]. apply IH; [tauto|]. eapply H1; [exact E|intuition congruence|exact G].
  Qed.

  Lemma key_case (k : str) (P : Prop) (s : string) : (k = key s -> P) -> (k <> key s -> P) -> P.
  Proof using. intros H1 H2. destruct (str_eqb k (key s)) eqn:E; [apply H1, str_eqb_eq, E|apply H2; intros ->; rewrite str_eqb_refl in E; discriminate]. Qed.

  Ltac cases H := repeat match type of H with
    | (if ?c then _ else _) = _ => let E := fresh "C" in destruct c eqn:E
    | (let! _ := ?x in _) = _ => destruct x; cbn [bind] in H; try discriminate H
    end; try discriminate H; try (injection H as <-).

  Lemma bpe_missing l : ~ In (key "merges") (map fst l) -> bpe_of_json F (JObj l) = Err EFile.
  Proof using.
    intros NI. destruct (never_set (bpe_field F) bf_mer (key "merges")) with (l := l) (st := bf0) as [NP NS]; [| |exact NI|reflexivity|].
    - intros [d u p s fu fb ig vo me] [k v] st' H NK G. cbn [bf_mer] in *. subst me. unfold bpe_field in H. cbn [fst] in NK. cases H; try reflexivity; match goal with C : str_eqb k (key "merges") = true |- _ => apply str_eqb_eq in C; contradiction end.
    - intros [d u p s fu fb ig vo me] [k v]. unfold bpe_field.
      pose proof (as_map_calm v). pose proof (as_merges_calm v). destruct (as_map v), (as_merge_type v); try congruence; cbn [bind];
      destruct v; cbn [as_option as_str as_float as_bool bind]; repeat match goal with |- context [if ?c then _ else _] => destruct c end; discriminate.
    - unfold bpe_of_json. destruct (each_field _ _ _) as [st|[]|]; cbn [bind]; [|reflexivity|congruence]. rewrite (NS st eq_refl). destruct (bf_voc st); reflexivity.
  Qed.

  Lemma wp_missing (l : list (str * json W)) : ~ In (key "continuing_subword_prefix") (map fst l) -> wp_of_json (JObj l) = Err EFile.
  Proof using.
    intros NI. destruct (never_set (@wp_field W) wf_pre (key "continuing_subword_prefix")) with (l := l) (st := mkWf None None None None) as [NP NS]; [| |exact NI|reflexivity|].
    - intros [u p x vo] [k v] st' H NK G. cbn [wf_pre] in *. subst p. unfold wp_field in H. cbn [fst] in NK. cases H; try reflexivity; match goal with C : str_eqb k (key "continuing_subword_prefix") = true |- _ => apply str_eqb_eq in C; contradiction end.
    - intros [u p x vo] [k v]. unfold wp_field.
      pose proof (as_map_calm v). destruct (as_map v); try congruence; cbn [bind];
      destruct v; cbn [as_str as_usize bind]; repeat (match goal with |- context [if ?c then _ else _] => destruct c end; cbn [bind]); discriminate.
    - unfold wp_of_json. destruct (each_field _ _ _) as [st|[]|]; cbn [bind]; [|reflexivity|congruence]. specialize (NS st eq_refl). destruct st as [[] p x vo]; cbn [wf_pre] in NS; subst p; reflexivity.
  Qed.

  Lemma wl_missing (l : list (str * json W)) : ~ In (key "unk_token") (map fst l) -> wl_of_json (JObj l) = Err EFile.
  Proof using.
    intros NI. destruct (never_set (@wl_field W) snd (key "unk_token")) with (l := l) (st := (@None (list (str * N)), @None str)) as [NP NS]; [| |exact NI|reflexivity|].
    - intros [vo un] [k v] st' H NK G. cbn [snd] in *. subst un. unfold wl_field in H. cbn [fst] in NK. cases H; try reflexivity; match goal with C : str_eqb k (key "unk_token") = true |- _ => apply str_eqb_eq in C; contradiction end.
    - intros [vo un] [k v]. unfold wl_field.
      pose proof (as_map_calm v). destruct (as_map v); try congruence; cbn [bind];
      destruct v; cbn [as_str bind]; repeat (match goal with |- context [if ?c then _ else _] => destruct c end; cbn [bind]); discriminate.
    - unfold wl_of_json. destruct (each_field _ _ _) as [st|[]|]; cbn [bind]; [|reflexivity|congruence]. specialize (NS st eq_refl). destruct st as [[] un]; cbn [snd] in NS; subst un; reflexivity.
  Qed.

  (** The fields of a rearranged object. *)
  Lemma rearranged_keys (l : list (str * json W)) j' : rearranged (JObj l) j' -> exists l', j' = JObj l' /\ Permutation (map fst l) (map fst l').
  Proof using.
    intros R. inversion R as [| |? l' l'' F2 P]; subst; [exists l; auto|]. exists l''. split; [reflexivity|]. eapply perm_trans; [|apply Permutation_map; exact P].
    clear -F2. induction F2 as [|a b l l' [E _] _ IH]; cbn; [constructor|]. rewrite E. constructor. exact IH.
  Qed.

  Lemma untyped l : model_of_json A F (without_type (JObj l)) = untagged A F (without_type (JObj l)).
  Proof using.
    unfold model_of_json, without_type, tag. replace (filter _ (filter _ l)) with (@nil (str * json W)); [reflexivity|]. induction l as [|kv l IH]; [reflexivity|]. cbn [filter].
    destruct (str_eqb (fst kv) (key "type")) eqn:E; cbn [negb]; [exact IH|]. cbn [filter]. rewrite E. exact IH.
  Qed.

  Lemma not_key (l : list (str * json W)) k g : ~ In k (map fst l) -> ~ In k (map fst (filter g l)).
  Proof using. intros H I. apply H. apply in_map_iff in I. destruct I as (x & <- & I). apply filter_In in I. apply in_map. tauto. Qed.
End missing.

(** ** Lines *)
Section lines.
  Lemma lines_line x : ~ In 10%N x -> forall cur rest, lines cur (x ++ 10%N :: rest) = chomp (cur ++ x) :: lines [] rest.
  Proof using.
    induction x as [|c x IH]; intros NI cur rest; cbn [app lines]; [rewrite app_nil_r; reflexivity|]. cbn [In] in NI. destruct (N.eqb c 10) eqn:E; [apply N.eqb_eq in E; tauto|].
    rewrite IH by tauto. rewrite <- app_assoc. reflexivity.
  Qed.
  Lemma lines_all (L : list str) : (forall x, In x L -> ~ In 10%N x) -> lines [] (flat_map (fun x => x ++ [10%N]) L) = map chomp L.
  Proof using.
    induction L as [|x L IH]; intros H; [reflexivity|]. cbn [flat_map map]. rewrite <- app_assoc. cbn [app]. rewrite lines_line by (apply H; left; reflexivity). rewrite IH by (intros y I; apply H; right; exact I). reflexivity.
  Qed.
  Lemma chomp_id x : (forall s, x <> s ++ [13%N]) -> chomp x = x.
  Proof using.
    intros H. unfold chomp. destruct (rev x) as [|c r] eqn:E; [reflexivity|]. assert (x = rev r ++ [c]) by (rewrite <- (rev_involutive x), E; reflexivity).
    destruct (N.eqb c 13) eqn:E13; [apply N.eqb_eq in E13; subst c; exfalso; eapply H; eassumption|]. destruct c as [|c]; [reflexivity|]. do 4 (destruct c as [c|c|]; try reflexivity). discriminate E13.
  Qed.
  Lemma split_none s : ~ In 32%N s -> forall cur, split_spaces cur s = [cur ++ s].
  Proof using.
    induction s as [|c s IH]; intros NI cur; cbn [split_spaces]; [rewrite app_nil_r; reflexivity|]. cbn [In] in NI. destruct (N.eqb c 32) eqn:E; [apply N.eqb_eq in E; tauto|]. rewrite IH by tauto. rewrite <- app_assoc. reflexivity.
  Qed.
  Lemma split_one a : ~ In 32%N a -> forall b cur, split_spaces cur (a ++ 32%N :: b) = (cur ++ a) :: split_spaces [] b.
  Proof using.
    induction a as [|c s IH]; intros NI b cur; cbn [split_spaces app]; [rewrite app_nil_r; reflexivity|]. cbn [In] in NI. destruct (N.eqb c 32) eqn:E; [apply N.eqb_eq in E; tauto|]. rewrite IH by tauto. rewrite <- app_assoc. reflexivity.
  Qed.
  Lemma starts_with_iff p s : starts_with p s = true <-> exists t, s = p ++ t.
  Proof using.
    revert s. induction p as [|a p IH]; intros s; cbn [starts_with]; [split; [exists s; reflexivity|reflexivity]|]. destruct s as [|b s]; [split; [discriminate|intros (t & [=])]|].
    rewrite andb_true_iff, IH, N.eqb_eq. split; [intros (-> & t & ->); exists t; reflexivity|intros (t & [= -> ->]); eauto].
  Qed.
  (** A text without the character [c] that starts [a ++ c :: b] starts [a]. *)
  Lemma prefix_before (p : str) : forall a c b t, ~ In c p -> a ++ c :: b = p ++ t -> exists t', a = p ++ t'.
  Proof using.
    induction p as [|x p IH]; intros a c b t NI E; [exists a; reflexivity|]. destruct a as [|y a]; cbn in E; [injection E as -> _; cbn in NI; tauto|]. injection E as -> E.
    destruct (IH a c b t) as (t' & ->); [cbn in NI; tauto|exact E|]. exists t'. reflexivity.
  Qed.

  Lemma merges_text (ml : list (str * str)) : Forall plain_merge ml ->
    convert_merges (lines [] (key "#version: 0.2" ++ [10%N] ++ flat_map (fun ab => fst ab ++ [32%N] ++ snd ab ++ [10%N]) ml)) = Ok ml.
  Proof using.
    intros H. replace (key "#version: 0.2" ++ [10%N] ++ flat_map (fun ab : str * str => fst ab ++ [32%N] ++ snd ab ++ [10%N]) ml) with (flat_map (fun x => x ++ [10%N]) (key "#version: 0.2" :: map (fun ab : str * str => fst ab ++ [32%N] ++ snd ab) ml)).
    2: { cbn [flat_map]. rewrite <- app_assoc. do 2 f_equal. clear H. induction ml as [|[a b] ml IH]; [reflexivity|]. cbn [map flat_map fst snd]. rewrite IH, <- !app_assoc. reflexivity. }
    rewrite lines_all. 2: { intros x [<-|I]; [vm_compute; intuition discriminate|]. apply in_map_iff in I. destruct I as ([a b] & <- & I). rewrite Forall_forall in H. destruct (H _ I) as ([_ N1] & [_ N2] & _). cbn [fst snd] in *.
      rewrite !in_app_iff. intros [X|[[X|[]]|X]]; [auto|discriminate|auto]. }
    cbn [map]. unfold convert_merges. cbn [filter]. replace (starts_with _ (chomp _)) with true by (vm_compute; reflexivity). cbn [negb].
    induction H as [|[a b] ml (P1 & P2 & P3 & P4) _ IH]; [reflexivity|]. cbn [map filter fst snd] in *. rewrite chomp_id.
    - destruct (starts_with (key "#version") (a ++ [32%N] ++ b)) eqn:E; cbn [negb].
      + apply starts_with_iff in E. destruct E as (t & E). destruct (prefix_before (key "#version") a 32%N b t) as (t' & ->); [vm_compute; intuition discriminate|exact E|]. exfalso. eapply P4. reflexivity.
      + cbn [map_res]. unfold merge_line at 1. change (a ++ [32%N] ++ b) with (a ++ 32%N :: b). rewrite split_one by apply P1. rewrite split_none by apply P2. cbn [bind]. rewrite IH. reflexivity.
    - intros s E. destruct b as [|b0 b1] eqn:EB using rev_ind; [|clear IHb1]; cbn in E.
      + apply (app_inj_tail a s 32%N 13%N) in E. destruct E as [_ E]. discriminate E.
      + change (a ++ 32%N :: b1 ++ [b0]) with (a ++ (32%N :: b1) ++ [b0]) in E. rewrite app_assoc in E. apply app_inj_tail in E. destruct E as [_ ->]. eapply P3. reflexivity.
  Qed.
End lines.

(** ** [vocab.txt] *)
Lemma le_sorted_unique : forall l l' : list N, StronglySorted N.le l -> StronglySorted N.le l' -> Permutation l l' -> l = l'.
Proof.
  induction l as [|x l IH]; intros l' S1 S2 P; [apply Permutation_nil in P; auto|]. destruct l' as [|y l']; [apply Permutation_sym, Permutation_nil in P; discriminate|].
  inversion S1 as [|? ? S1' F1]; subst. inversion S2 as [|? ? S2' F2]; subst. rewrite Forall_forall in F1, F2.
  assert (x = y). { assert (I1 : In x (y :: l')) by (apply (Permutation_in _ P); left; reflexivity). assert (I2 : In y (x :: l)) by (apply (Permutation_in _ (Permutation_sym P)); left; reflexivity).
    destruct I1 as [->|I1]; [reflexivity|]. destruct I2 as [->|I2]; [reflexivity|]. specialize (F1 _ I2). specialize (F2 _ I1). lia. }
  subst y. f_equal. apply IH; [exact S1'|exact S2'|]. eapply Permutation_cons_inv. exact P.
Qed.

Lemma seq_sorted n : forall a, StronglySorted N.le (map N.of_nat (seq a n)).
Proof. induction n as [|n IH]; intros a; cbn [seq map]; constructor; [apply IH|]. apply Forall_forall. intros x I. apply in_map_iff in I. destruct I as (y & <- & I). apply in_seq in I. lia. Qed.

Section vocab_txt.
  Context (is_ws : char -> bool).
  Lemma trim_plain t : plain_token is_ws t -> trim_end is_ws t = t.
  Proof using.
    intros [_ H]. unfold trim_end. destruct (rev t) as [|c r] eqn:E; cbn [drop_ws]; [rewrite <- (rev_involutive t), E; reflexivity|].
    assert (X : t = rev r ++ [c]) by (rewrite <- (rev_involutive t), E; reflexivity). rewrite (H _ _ X). rewrite <- E. apply rev_involutive.
  Qed.
  Lemma chomp_trim t : is_ws 13%N = true -> plain_token is_ws t -> chomp t = t.
  Proof using. intros W13 [_ H]. apply chomp_id. intros s E. specialize (H _ _ E). congruence. Qed.

  Lemma number_plain l : Forall (plain_token is_ws) l -> NoDup l -> forall i m, (N.of_nat (i + length l) <= 2 ^ 32)%N -> (forall t, In t l -> ~ In t (map fst m)) ->
    number_lines is_ws i l m = m ++ combine l (map N.of_nat (seq i (length l))).
  Proof using.
    induction 1 as [|t l P _ IH]; intros D i m LT NI; cbn [number_lines length seq map combine]; [rewrite app_nil_r; reflexivity|]. inversion D as [|? ? N1 D1]; subst. cbn [length] in LT.
    rewrite (trim_plain _ P), N.mod_small by lia.
    assert (X : forall (m : list (str * N)) v, ~ In t (map fst m) -> aset str_eqb t v m = m ++ [(t, v)]).
    { clear -t. induction m as [|[x y] m IHm]; intros v N2; [reflexivity|]. cbn in *. destruct (str_eqb t x) eqn:E; [apply str_eqb_eq in E; subst; tauto|]. rewrite IHm by tauto. reflexivity. }
    rewrite X by (apply NI; left; reflexivity). rewrite IH; [|exact D1|lia|].
    - rewrite <- app_assoc. cbn [app]. replace (i + 1) with (S i) by lia. reflexivity.
    - intros x I. rewrite map_app, in_app_iff. cbn. intros [J|[->|[]]]; [|contradiction]. apply (NI x); [right; exact I|exact J].
  Qed.

  Lemma combine_parts {X Y} (l : list (X * Y)) : combine (map fst l) (map snd l) = l.
  Proof using. induction l as [|[x y] l IH]; [reflexivity|]. cbn. rewrite IH. reflexivity. Qed.

  Lemma wp_text by_id (m : wordpiece) : id_sort by_id -> is_ws 13%N = true -> dense (w_vocab m) -> (N.of_nat (length (w_vocab m)) <= 2 ^ 32)%N ->
    (forall t, In t (map fst (w_vocab m)) -> plain_token is_ws t) -> same_map (w_vocab m) (wp_read is_ws (wp_save by_id m)).
  Proof using.
    intros IS W13 [D P] LN PT. destruct (IS (w_vocab m)) as [PB SB].
    assert (FL : wp_save by_id m = flat_map (fun x => x ++ [10%N]) (map fst (by_id (w_vocab m)))).
    { unfold wp_save. generalize (by_id (w_vocab m)). induction l as [|x l IH]; [reflexivity|]. cbn [flat_map map]. rewrite IH. reflexivity. }
    assert (PT' : Forall (plain_token is_ws) (map fst (by_id (w_vocab m)))).
    { apply Forall_forall. intros x I. apply PT. apply (Permutation_in _ (Permutation_map fst (Permutation_sym PB))). exact I. }
    assert (D' : NoDup (map fst (by_id (w_vocab m)))) by (eapply Permutation_NoDup; [apply Permutation_map; exact PB|exact D]).
    assert (EI : map snd (by_id (w_vocab m)) = map N.of_nat (seq 0 (length (w_vocab m)))).
    { apply le_sorted_unique; [|apply seq_sorted|eapply perm_trans; [apply Permutation_map, Permutation_sym; exact PB|exact P]].
      clear - SB. induction SB as [|x l _ IH F1]; cbn; constructor; [exact IH|]. apply Forall_forall. intros y I. apply in_map_iff in I. destruct I as (z & <- & I). rewrite Forall_forall in F1. apply F1. exact I. }
    assert (ER : wp_read is_ws (wp_save by_id m) = by_id (w_vocab m)).
    { unfold wp_read. rewrite FL, lines_all by (intros x I; rewrite Forall_forall in PT'; apply (PT' x I)).
      replace (map chomp (map fst (by_id (w_vocab m)))) with (map fst (by_id (w_vocab m))).
      2: { rewrite map_map. apply map_ext_in. intros e I. symmetry. apply chomp_trim; [exact W13|]. rewrite Forall_forall in PT'. apply PT'. apply in_map. exact I. }
      assert (LL : length (by_id (w_vocab m)) = length (w_vocab m)) by (symmetry; apply Permutation_length; exact PB).
      rewrite number_plain; [|exact PT'|exact D'|rewrite map_length, LL; exact LN|intros t _ []]. cbn [app]. rewrite map_length, LL, <- EI. apply combine_parts. }
    rewrite ER. split; [exact D'|exact PB].
  Qed.
End vocab_txt.

(** ** Words of known characters, however the merges are numbered *)
Lemma to_tokens_view m w w' : word_view w = word_view w' -> word_to_tokens m w = word_to_tokens m w'.
Proof.
  intros E. unfold word_to_tokens. assert (X : get_chars w = get_chars w') by (apply (f_equal (map fst)) in E; unfold word_view in E; rewrite !map_map in E; exact E).
  assert (Y : forall (w w' : word) p, word_view w = word_view w' -> get_offsets p w = get_offsets p w').
  { clear. induction w as [|s w IH]; intros [|s' w'] p E; try discriminate; [reflexivity|]. cbn in *. injection E as E1 E2 E3. rewrite E2. f_equal. apply IH. exact E3. }
  rewrite X, (Y _ _ _ E). reflexivity.
Qed.

Lemma known_run_unique' m m' : (forall t, b_id m' t = b_id m t) -> (forall f l s, decorate m' f l s = decorate m f l s) ->
  forall first s post l, known_run m' first s post l -> forall l', known_run m first s post l' -> l = l'.
Proof.
  intros SI DC first s post l H. induction H as [|first c x post id l H1 _ IH]; intros l' H'; inversion H' as [|? ? ? ? id' l2 H2 H3]; subst; [reflexivity|].
  rewrite SI, DC, H2 in H1. injection H1 as ->. f_equal. apply IH. exact H3.
Qed.
Lemma known_run_unique m m' : (forall t, b_id m' t = b_id m t) -> (forall f l s, decorate m' f l s = decorate m f l s) ->
  forall first s post l, known_run m first s post l -> forall l', known_run m first s post l' -> l = l'.
Proof. intros _ _. apply known_run_unique'; reflexivity. Qed.

Lemma known_same pop pop' vocab merges prefix m m' s : heap_ok pop -> heap_ok pop' -> built vocab merges prefix m -> writable vocab -> same_bpe m m' ->
  (forall p c q, s = p ++ c :: q -> known_char m (is_nil p) (is_nil q) c) ->
  (let! w := merge_word pop' m' no_draw s in word_to_tokens m' w) = (let! w := merge_word pop m no_draw s in word_to_tokens m w).
Proof.
  intros HP HP' B WR SB AK. pose proof (built_facts_of _ _ _ _ B) as BF. pose proof (same_bpe_maps _ _ SB) as [SI ST]. pose proof SB as SB0. destruct SB0 as (_ & _ & SL & E1 & E2).
  destruct (known_word pop vocab merges prefix m no_draw s HP BF AK) as (toks & l & w & ET & KR & CS & P & M & V).
  assert (AD : additive (b_lookup m) (text_weight prefix m)) by (eapply built_additive; [exact BF|apply WR]).
  assert (KW : Forall (fun s => (0 < text_weight prefix m (fst s))%Z) (tl l)).
  { inversion KR as [|? ? ? ? ? ? EI KR']; subst; [constructor|]. cbn [tl]. eapply known_run_weight; [exact BF|apply WR|exact KR']. }
  destruct (merge_all_canonical pop (b_lookup m) (text_weight prefix m) no_draw l HP) as (out & E & C); [reflexivity|exact AD|exact P|exact KW|]. rewrite M in E. injection E as <-.
  destruct (merge_all_canonical pop' (b_lookup m') (text_weight prefix m) no_draw l HP') as (w' & E' & C'); [reflexivity| |exact P|exact KW|].
  { intros a b r n H. apply SL in H. destruct H as (r0 & H & _). eapply AD. exact H. }
  assert (VW : word_view w' = word_view w) by (eapply C32_unique; [exact C'|]; eapply canonical_same; eassumption).
  assert (DC : forall f l s, decorate m' f l s = decorate m f l s) by (intros f0 l0 s0; unfold decorate; injection E1 as _ _ -> ->; reflexivity).
  destruct (leaves_known m s true AK) as (l1 & L1 & KR1). rewrite (known_run_unique _ _ SI DC _ _ _ _ KR1 _ KR) in L1.
  destruct (leaves_known m' s true) as (l2 & L2 & KR2); [intros p c q E; unfold known_char; rewrite SI, DC; exact (AK p c q E)|]. rewrite (known_run_unique' _ _ SI DC _ _ _ _ KR2 _ KR) in L2.
  rewrite !merge_word_leaves, L1, L2. cbn [bind]. rewrite M, E'. cbn [bind]. rewrite (to_tokens_view _ _ _ VW). apply same_word_to_tokens. exact ST.
Qed.
