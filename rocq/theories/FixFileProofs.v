From Coq Require Import String.
From Coq Require Import Sorting.Permutation Sorting.Sorted.
From Verif Require Import Base StrBytes ListFacts AMap EncodingModel TruncPadModel BpeWordModel BpeModel BpeSpec BpeProofs RoundTripModel WordPieceModel UnigramModel AddedModel AddedSpec AddedProofs AddedProofs2 ProcessorsModel TokenizerModel ModelFilesModel ModelFilesSpec ModelFilesProofs ModelFilesProofs2 ModelFilesProofs3 ModelFilesProofs4 ModelFilesProps ComponentFilesModel ComponentFilesSpec ComponentFilesProofs ComponentFilesProofs2 ComponentFilesProofs3 TokenizerFilesModel TokenizerFilesSpec TokenizerFilesProofs TokenizerFilesProofs2 FixFileSpec.

(** ** Vocabularies *)
Lemma max_key_iff vr n : max_key vr = Some n <-> In n (map fst vr) /\ forall i, In i (map fst vr) -> (i <= n)%N.
Proof.
  assert (U : forall a, max_key vr = Some a -> In a (map fst vr) /\ forall i, In i (map fst vr) -> (i <= a)%N).
  { unfold max_key. assert (G : forall l acc a, fold_left (fun acc (e : N * str) => match acc with None => Some (fst e) | Some m => Some (N.max m (fst e)) end) l acc = Some a ->
      (acc = Some a \/ In a (map fst l)) /\ (forall b, acc = Some b -> (b <= a)%N) /\ forall i, In i (map fst l) -> (i <= a)%N).
    { induction l as [|[k t] l IH]; intros acc a H; cbn [fold_left map fst] in *.
      - subst acc. split; [auto|]. split; [intros b E; injection E as ->; lia|intros i []].
      - destruct (IH _ _ H) as (A & B & C). destruct acc as [b|].
        + specialize (B _ eq_refl). split; [|split].
          * destruct A as [A|A]; [|right; right; exact A]. injection A as A. destruct (N.max_spec b k) as [[_ M]|[_ M]]; rewrite M in A; [right; left; exact A|left; congruence].
          * intros b' E. injection E as <-. lia.
          * intros i [<-|I]; [lia|auto].
        + specialize (B _ eq_refl). split; [|split].
          * destruct A as [A|A]; [injection A as A; right; left; exact A|right; right; exact A].
          * discriminate.
          * intros i [<-|I]; [lia|auto]. }
    intros a H. destruct (G _ _ _ H) as (A & _ & C). split; [|exact C]. destruct A as [A|A]; [discriminate A|exact A]. }
  split; [apply U|]. intros [I H]. destruct (max_key vr) as [a|] eqn:E.
  - destruct (U _ eq_refl) as [IA HA]. f_equal. specialize (H _ IA). specialize (HA _ I). lia.
  - apply max_key_none in E. subst vr. destruct I.
Qed.
Lemma aget_keys (vr vr' : list (N * str)) : (forall i, aget N.eqb i vr' = aget N.eqb i vr) -> forall i, In i (map fst vr') <-> In i (map fst vr).
Proof.
  assert (K : forall (l : list (N * str)) i, In i (map fst l) <-> aget N.eqb i l <> None).
  { intros l i. induction l as [|[k t] l IH]; cbn [map fst aget In]; [tauto|]. destruct (N.eqb i k) eqn:E.
    - apply N.eqb_eq in E. subst k. split; [discriminate|auto].
    - apply N.eqb_neq in E. rewrite <- IH. split; [intros [X|X]; [congruence|exact X]|auto]. }
  intros H i. rewrite !K, H. tauto.
Qed.
Lemma ordered_vocab_ext {W} vr vr' : (forall i, aget N.eqb i vr' = aget N.eqb i vr) -> @ordered_vocab W vr' = ordered_vocab vr.
Proof.
  intros H. pose proof (aget_keys _ _ H) as K. unfold ordered_vocab.
  assert (M : max_key vr' = max_key vr).
  { destruct (max_key vr) as [n|] eqn:E.
    - apply max_key_iff. apply max_key_iff in E. destruct E as [A B]. split; [apply K; exact A|]. intros i I. apply B, K, I.
    - apply max_key_none in E. subst vr. destruct vr' as [|[k t] vr']; [reflexivity|]. specialize (H k). cbn [aget] in H. rewrite N.eqb_refl in H. discriminate. }
  rewrite M. destruct (max_key vr) as [n|]; [|reflexivity]. destruct (N.leb _ _); [reflexivity|]. do 2 f_equal. apply flat_map_ext. intros i. rewrite H. reflexivity.
Qed.
Lemma n_aget_perm {A} (l l' : list (N * A)) i : NoDup (map fst l) -> Permutation l l' -> aget N.eqb i l' = aget N.eqb i l.
Proof.
  intros D P. assert (D' : NoDup (map fst l')) by (eapply Permutation_NoDup; [apply Permutation_map; exact P|exact D]).
  destruct (aget N.eqb i l) as [a|] eqn:E.
  - apply (In_aget N.eqb N_eqb_eq); [exact D'|]. eapply Permutation_in; [exact P|]. apply (aget_In N.eqb N_eqb_eq). exact E.
  - destruct (aget N.eqb i l') as [a|] eqn:E'; [|reflexivity]. apply (aget_In N.eqb N_eqb_eq) in E'. apply (Permutation_in _ (Permutation_sym P)) in E'.
    apply (In_aget N.eqb N_eqb_eq) in E'; [congruence|exact D].
Qed.
Lemma reverse_aget (v : list (str * N)) t i : NoDup (map snd v) -> aget N.eqb i (reverse_vocab v) = Some t <-> In (t, i) v.
Proof.
  intros D. unfold reverse_vocab.
  assert (G : forall v acc, NoDup (map snd v) -> aget N.eqb i (fold_left (fun acc (e : str * N) => aset N.eqb (snd e) (fst e) acc) v acc) = Some t <->
     In (t, i) v \/ (~ In i (map snd v) /\ aget N.eqb i acc = Some t)).
  { clear. induction v as [|[u k] v IH]; intros acc D; cbn [fold_left map snd fst In] in *; [tauto|]. inversion D as [|? ? NI D']; subst. rewrite (IH _ D'), (aget_aset N.eqb N_eqb_eq).
    destruct (N.eqb i k) eqn:E.
    - apply N.eqb_eq in E. subst k. split.
      + intros [A|[A B]]; [auto|]. injection B as ->. auto.
      + intros [[A|A]|[A B]]; [injection A as ->; right; auto|auto|tauto].
    - apply N.eqb_neq in E. split.
      + intros [A|[A B]]; [auto|]. right. split; [intros [X|X]; [congruence|tauto]|exact B].
      + intros [[A|A]|[A B]]; [congruence|auto|right; tauto]. }
  rewrite (G v [] D). cbn. intuition discriminate.
Qed.
Lemma reverse_perm (v v' : list (str * N)) i : NoDup (map snd v) -> Permutation v v' -> aget N.eqb i (reverse_vocab v') = aget N.eqb i (reverse_vocab v).
Proof.
  intros D P. assert (D' : NoDup (map snd v')) by (eapply Permutation_NoDup; [apply Permutation_map; exact P|exact D]).
  destruct (aget N.eqb i (reverse_vocab v)) as [a|] eqn:E.
  - apply reverse_aget; [exact D'|]. apply reverse_aget in E; [|exact D]. eapply Permutation_in; eassumption.
  - destruct (aget N.eqb i (reverse_vocab v')) as [a|] eqn:E'; [|reflexivity]. apply reverse_aget in E'; [|exact D']. apply (Permutation_in _ (Permutation_sym P)) in E'.
    apply reverse_aget in E'; [congruence|exact D].
Qed.

(** ** Merges *)
Lemma sorted_perm_unique {K} (R : K -> K -> Prop) : (forall a b, R a b -> R b a -> False) ->
  forall l l', StronglySorted R l -> StronglySorted R l' -> Permutation l l' -> l = l'.
Proof.
  intros AS. induction l as [|x l IH]; intros l' S S' P.
  - apply Permutation_nil in P. symmetry. exact P.
  - destruct l' as [|y l']; [apply Permutation_sym, Permutation_nil in P; discriminate|]. inversion S as [|? ? S1 F1]; subst. inversion S' as [|? ? S2 F2]; subst.
    rewrite Forall_forall in F1, F2. assert (x = y).
    { assert (IY : In y (x :: l)) by (eapply Permutation_in; [apply Permutation_sym; exact P|left; reflexivity]).
      assert (IX : In x (y :: l')) by (eapply Permutation_in; [exact P|left; reflexivity]).
      destruct IY as [<-|IY]; [reflexivity|]. destruct IX as [->|IX]; [reflexivity|]. exfalso. apply (AS x y); auto. }
    subst y. f_equal. apply IH; try assumption. eapply Permutation_cons_inv. exact P.
Qed.

Section ranks.
  Context (by_rank : list ((N * N) * (N * N)) -> list ((N * N) * (N * N))) (RS : rank_sort by_rank).
  Definition earlier (T : list ((N * N) * (N * N))) (a b : N * N) : Prop :=
    exists r n s k, In (a, (r, n)) T /\ In (b, (s, k)) T /\ (r < s)%N.
  Lemma earlier_sorted T : NoDup (map (fun e => fst (snd e)) T) -> StronglySorted (earlier T) (map fst (by_rank T)).
  Proof using RS.
    intros D. destruct (RS T) as [P S]. assert (D' : NoDup (map (fun e => fst (snd e)) (by_rank T))) by (eapply Permutation_NoDup; [apply Permutation_map; exact P|exact D]).
    assert (I : forall e, In e (by_rank T) -> In e T) by (intros e; apply Permutation_in, Permutation_sym, P). revert D' S I. generalize (by_rank T) as L. clear - RS.
    induction L as [|[a [r n]] L IH]; intros D S I; cbn [map fst]; [constructor|]. inversion S as [|? ? S1 F1]; subst. inversion D as [|? ? NI D1]; subst. constructor.
    - apply IH; auto. intros e X. apply I. right. exact X.
    - apply Forall_forall. intros b IB. apply in_map_iff in IB. destruct IB as ([b' [s k]] & <- & IB). cbn [fst]. exists r, n, s, k.
      split; [apply I; left; reflexivity|]. split; [apply I; right; exact IB|]. rewrite Forall_forall in F1. specialize (F1 _ IB). cbn [snd fst] in F1.
      assert (r <> s); [|lia]. intros <-. apply NI. apply in_map_iff. exists (b', (r, k)). auto.
  Qed.
  Lemma earlier_asym T : NoDup (map fst T) -> forall a b, earlier T a b -> earlier T b a -> False.
  Proof using.
    intros D a b (r & n & s & k & A & B & L) (r' & n' & s' & k' & A' & B' & L').
    assert (U : forall x y z, In (x, y) T -> In (x, z) T -> y = z).
    { intros x y z H1 H2. clear - D H1 H2. induction T as [|[x0 y0] T IH]; [destruct H1|]. cbn [map fst] in D. inversion D as [|? ? NI D']; subst.
      destruct H1 as [H1|H1], H2 as [H2|H2]; [congruence| | |auto]; exfalso; apply NI.
      - injection H1 as -> ->. apply (in_map fst) in H2. exact H2.
      - injection H2 as -> ->. apply (in_map fst) in H1. exact H1. }
    pose proof (U _ _ _ A B'). pose proof (U _ _ _ B A'). assert (r = s') by congruence. assert (s = r') by congruence. lia.
  Qed.
  Lemma rank_order T T' : NoDup (map fst T) -> NoDup (map (fun e => fst (snd e)) T) -> NoDup (map (fun e => fst (snd e)) T') ->
    Permutation (map fst T) (map fst T') -> (forall a b, earlier T' a b -> earlier T a b) -> map fst (by_rank T') = map fst (by_rank T).
  Proof using RS.
    intros D R R' P E. apply (sorted_perm_unique (earlier T)); [apply earlier_asym; exact D| |apply earlier_sorted; exact R|].
    - pose proof (earlier_sorted T' R') as S. revert S. generalize (map fst (by_rank T')) as L. induction L as [|x L IH]; intros S; constructor; inversion S as [|? ? S1 F1]; subst; [auto|].
      eapply Forall_impl; [|exact F1]. intros; auto.
    - eapply perm_trans; [apply Permutation_map, Permutation_sym; apply RS|]. eapply perm_trans; [apply Permutation_sym; exact P|]. apply Permutation_map. apply RS.
  Qed.
  Lemma merge_texts_ext m m' : (forall i, b_token m' i = b_token m i) -> map fst (by_rank (b_merges m')) = map fst (by_rank (b_merges m)) -> merge_texts by_rank m' = merge_texts by_rank m.
  Proof using.
    intros T E. unfold merge_texts. revert E. generalize (by_rank (b_merges m')) as L'. generalize (by_rank (b_merges m)) as L.
    induction L as [|e L IH]; intros [|e' L'] E; try discriminate; [reflexivity|]. cbn [map] in E. assert (E1 : fst e' = fst e) by congruence. assert (E2 : map fst L' = map fst L) by congruence.
    cbn [map_res]. rewrite E1, !T, (IH _ E2). reflexivity.
  Qed.
End ranks.

(** ** Models *)
Section models.
  Context {W : Type} (A : arith W) (F : floats W) (by_rank : list ((N * N) * (N * N)) -> list ((N * N) * (N * N))) (RS : rank_sort by_rank).

  Lemma shuffled_table T T' : NoDup (map fst T) -> NoDup (map (fun e => fst (snd e)) T) -> Permutation T T' -> map fst (by_rank T') = map fst (by_rank T).
  Proof using RS.
    intros D R P. apply (rank_order _ RS); try assumption.
    - eapply Permutation_NoDup; [apply Permutation_map; exact P|exact R].
    - apply Permutation_map. exact P.
    - intros a b (r & n & s & k & X & Y & L). exists r, n, s, k. split; [|split; [|exact L]]; eapply Permutation_in; try eassumption; apply Permutation_sym, P.
  Qed.
  Lemma bpe_json_ext m m' : (forall i, b_token m' i = b_token m i) -> map fst (by_rank (b_merges m')) = map fst (by_rank (b_merges m)) ->
    (b_dropout m', b_unk m', b_prefix m', b_suffix m') = (b_dropout m, b_unk m, b_prefix m, b_suffix m) ->
    (b_fuse m', b_fallback m', b_ignore_merges m') = (b_fuse m, b_fallback m, b_ignore_merges m) -> bpe_to_json F by_rank m' = bpe_to_json F by_rank m.
  Proof using.
    intros T M E1 E2. injection E1 as E11 E12 E13 E14. injection E2 as E21 E22 E23. unfold bpe_to_json. rewrite (merge_texts_ext _ _ _ T M), (ordered_vocab_ext (b_vocab_r m) (b_vocab_r m') T).
    rewrite E11, E12, E13, E14, E21, E22, E23. reflexivity.
  Qed.
  Lemma shuffled_json m m' : unambiguous m -> shuffled_model m m' -> model_to_json F by_rank m' = model_to_json F by_rank m.
  Proof using RS.
    intros U S. destruct S as [v r t d u p s f b i v' r' t' PV PR PT|m m' PV E1 E2 E3|m m' PV E1|m]; cbn [model_to_json unambiguous b_vocab_r b_merges] in *.
    - destruct U as (U1 & U2 & U3). apply bpe_json_ext; try reflexivity; cbn [b_merges].
      + intros k. unfold b_token. cbn [b_vocab_r]. apply n_aget_perm; assumption.
      + apply shuffled_table; assumption.
    - unfold wp_to_json. rewrite (ordered_vocab_ext (reverse_vocab (w_vocab m)) (reverse_vocab (w_vocab m'))), E1, E2, E3; [reflexivity|]. intros k. apply reverse_perm; assumption.
    - unfold wl_to_json. rewrite (ordered_vocab_ext (reverse_vocab (l_vocab m)) (reverse_vocab (l_vocab m'))), E1; [reflexivity|]. intros k. apply reverse_perm; assumption.
    - reflexivity.
  Qed.

  (** The table of a loaded model. *)
  Lemma built_keys v l d u p s f b i m : bpe_build v l d u p s f b i = Ok m -> NoDup (map fst (b_merges m)).
  Proof using.
    intros BB. unfold bpe_build in BB. destruct d; try discriminate; (apply bind_ok in BB; destruct BB as (mm & X & Y); injection Y as <-; eapply build_merges_nodup; [exact X|constructor]).
  Qed.
  Lemma json_keys j m : bpe_of_json F j = Ok m -> NoDup (map fst (b_merges m)).
  Proof using.
    unfold bpe_of_json. destruct j; try discriminate. intros H. apply bind_ok in H. destruct H as (st & _ & H). destruct (bf_voc st); [|discriminate]. destruct (bf_mer st) as [mt|]; [|discriminate].
    apply bind_ok in H. destruct H as (ml & _ & H). unfold custom in H. destruct (bpe_build _ _ _ _ _ _ _ _ _) eqn:E; try discriminate. injection H as ->. eapply built_keys. exact E.
  Qed.
  Lemma model_keys j m : model_of_json A F j = Ok (MBpe m) -> NoDup (map fst (b_merges m)).
  Proof using.
    assert (L : forall j, load_bpe F j = Ok (MBpe m) -> NoDup (map fst (b_merges m))).
    { intros j0 H. unfold load_bpe in H. apply bind_ok in H. destruct H as (x & H & E). injection E as ->. eapply json_keys. exact H. }
    assert (N1 : forall j, @load_wordpiece W j = Ok (MBpe m) -> False) by (intros j0 H; unfold load_wordpiece in H; apply bind_ok in H; destruct H as (x & _ & E); discriminate).
    assert (N2 : forall j, @load_wordlevel W j = Ok (MBpe m) -> False) by (intros j0 H; unfold load_wordlevel in H; apply bind_ok in H; destruct H as (x & _ & E); discriminate).
    assert (N3 : forall j, load_unigram A F j = Ok (MBpe m) -> False) by (intros j0 H; unfold load_unigram in H; apply bind_ok in H; destruct H as (x & _ & E); discriminate).
    assert (U : forall j, untagged A F j = Ok (MBpe m) -> NoDup (map fst (b_merges m))).
    { intros j0 H. unfold untagged, or_try in H. destruct (load_bpe F j0) eqn:E1; [eapply L; rewrite E1; exact H| |discriminate].
      destruct (@load_wordpiece W j0) eqn:E2; [exfalso; eapply N1; rewrite E2; exact H| |discriminate].
      destruct (@load_wordlevel W j0) eqn:E3; [exfalso; eapply N2; rewrite E3; exact H| |discriminate]. exfalso. eapply N3. exact H. }
    unfold model_of_json. destruct j as [| | | | |l|l]; try (apply U). unfold tag. destruct (filter _ l) as [|[? v] [|]]; try apply U; destruct v; try apply U. unfold variant.
    repeat (destruct (str_eqb _ _); [first [apply L|intros H; exfalso; first [eapply N1; exact H|eapply N2; exact H|eapply N3; exact H]]|]). apply U.
  Qed.

  (** The loaded model is saved as the one that it came from. *)
  Lemma loaded_bpe_ext vocab merges prefix m m' : built vocab merges prefix m -> writable vocab -> same_bpe m m' -> NoDup (map fst (b_merges m')) ->
    (forall i, b_token m' i = b_token m i) /\ map fst (by_rank (b_merges m')) = map fst (by_rank (b_merges m)).
  Proof using RS.
    intros B WR SB D'. pose proof (same_bpe_maps _ _ SB) as [_ ST]. destruct SB as (_ & _ & SL & _). split; [exact ST|].
    pose proof (table_keys _ _ _ _ B) as D. pose proof (table_ranks _ _ _ _ B WR) as R.
    assert (IT : forall a b r n, In ((a, b), (r, n)) (b_merges m) <-> b_lookup m a b = Some (r, n)) by (intros a b r n; apply (in_table _ _ _ _ B ((a, b), (r, n)))).
    assert (IT' : forall a b r n, In ((a, b), (r, n)) (b_merges m') <-> b_lookup m' a b = Some (r, n)).
    { intros a b r n. unfold b_lookup. split; [apply (In_aget _ pair_eqb_eq); exact D'|apply (aget_In _ pair_eqb_eq)]. }
    assert (MI : forall a b c d r n s k, b_lookup m a b = Some (r, n) -> b_lookup m c d = Some (s, k) -> (place m r < place m s)%N -> (r < s)%N).
    { intros a b c d r n s k H1 H2 L. destruct (N.lt_trichotomy r s) as [X|[X|X]]; [exact X|subst; lia|]. pose proof (place_mono _ _ _ _ B _ _ _ _ r H2 X). lia. }
    apply (rank_order _ RS); try assumption.
    - assert (INJ : forall e e', In e (b_merges m') -> In e' (b_merges m') -> fst (snd e) = fst (snd e') -> fst e = fst e').
      { intros [[a b] [r n]] [[c d] [s k]] H1 H2 E. cbn [fst snd] in *. subst s. apply IT', SL in H1. apply IT', SL in H2. destruct H1 as (x & H1 & E1), H2 as (y & H2 & E2).
        assert (EQ : x = y). { destruct (N.lt_trichotomy x y) as [X|[X|X]]; [pose proof (place_mono _ _ _ _ B _ _ _ _ y H1 X); lia|exact X|pose proof (place_mono _ _ _ _ B _ _ _ _ x H2 X); lia]. }
        subst y. apply IT in H1, H2. clear - R H1 H2. induction (b_merges m) as [|e T IH]; [destruct H1|]. cbn [map] in R. inversion R as [|? ? NI R']; subst.
        destruct H1 as [H1|H1], H2 as [H2|H2]; [congruence| | |auto]; exfalso; apply NI.
        - subst e. apply (in_map (fun e => fst (snd e))) in H2. exact H2.
        - subst e. apply (in_map (fun e => fst (snd e))) in H1. exact H1. }
      revert D' INJ. clear. generalize (b_merges m') as T. induction T as [|e T IH]; intros D INJ; [constructor|]. cbn [map] in *. inversion D as [|? ? NI D']; subst. constructor.
      + intros H. apply in_map_iff in H. destruct H as (e' & E & H). apply NI. rewrite (INJ e e'); [apply in_map; exact H|left; reflexivity|right; exact H|auto].
      + apply IH; [exact D'|]. intros x y X Y. apply INJ; right; assumption.
    - apply NoDup_Permutation; [exact D|exact D'|]. intros [a b]. split; intros H; apply in_map_iff in H; destruct H as ([[a' b'] [r n]] & E & H); cbn [fst] in E; injection E as -> ->.
      + apply IT in H. apply in_map_iff. exists ((a, b), (place m r, n)). split; [reflexivity|]. apply IT', SL. eauto.
      + apply IT', SL in H. destruct H as (r0 & H & _). apply IT in H. apply in_map_iff. eexists. split; [|exact H]. reflexivity.
    - intros [a b] [c d] (r & n & s & k & X & Y & L). apply IT', SL in X. apply IT', SL in Y. destruct X as (x & X & ->), Y as (y & Y & ->). exists x, n, y, k.
      split; [apply IT; exact X|]. split; [apply IT; exact Y|]. eapply MI; eassumption.
  Qed.
  Lemma loaded_json m m' : savable A F m -> same_model m m' -> (forall b, m' = MBpe b -> NoDup (map fst (b_merges b))) -> model_to_json F by_rank m' = model_to_json F by_rank m.
  Proof using RS.
    intros S SM K. destruct m as [m|m|m|m], m' as [m'|m'|m'|m']; try contradiction; cbn [same_model savable model_to_json] in *.
    - destruct S as (vocab & merges & prefix & B & WR). destruct (loaded_bpe_ext _ _ _ _ _ B WR SM (K _ eq_refl)) as [T E]. destruct SM as (_ & _ & _ & E1 & E2). apply bpe_json_ext; assumption.
    - destruct SM as ((_ & P) & E). destruct S as ((_ & D & _) & _). injection E as E1 E2 E3. unfold wp_to_json. rewrite E1, E2, E3, (ordered_vocab_ext (reverse_vocab (w_vocab m)) (reverse_vocab (w_vocab m'))); [reflexivity|].
      intros k. apply reverse_perm; assumption.
    - destruct SM as ((_ & P) & E). destruct S as (_ & D & _). unfold wl_to_json. rewrite E, (ordered_vocab_ext (reverse_vocab (l_vocab m)) (reverse_vocab (l_vocab m'))); [reflexivity|].
      intros k. apply reverse_perm; assumption.
    - subst m'. reflexivity.
  Qed.
End models.

(** ** Post-processors, added tokens *)
Lemma proc_json_ext {W} by_key c : order_blind by_key -> forall c', same_proc c c' -> @proc_to_json W by_key c' = proc_to_json by_key c.
Proof.
  intros OB. induction c as [cs IH|c NS] using proc_config_ind'; intros c' H; inversion H as [|t t' St|l l' Fa]; subst; auto.
  - cbn [proc_to_json]. assert (E : map (@proc_to_json W by_key) l' = map (proc_to_json by_key) cs).
    { clear H. induction Fa as [|x y l l' XY Fa IHF]; [reflexivity|]. inversion IH as [|? ? I1 I2]; subst. cbn [map]. rewrite (I1 _ XY), IHF; auto. }
    rewrite E. reflexivity.
  - destruct St as (E1 & E2 & _ & _ & (D & P)). cbn [proc_to_json]. unfold of_specials. rewrite E1, E2, (OB (tc_special t') (tc_special t) D (Permutation_sym P)). reflexivity.
  - exfalso. eapply NS. reflexivity.
Qed.
Lemma sort_by_id_blind (l l' : list (N * added_token)) : NoDup (map fst l) -> Permutation l l' -> sort_by_id l' = sort_by_id l.
Proof.
  intros D P. apply (sorted_perm_unique (fun a b => (fst a < fst b)%N)); [intros a b; lia| | |].
  3: { eapply perm_trans; [apply Permutation_sym, sort_by_id_perm|]. eapply perm_trans; [apply Permutation_sym; exact P|apply sort_by_id_perm]. }
  all: assert (G : forall l : list (N * added_token), NoDup (map fst l) -> StronglySorted id_le l -> StronglySorted (fun a b => (fst a < fst b)%N) l)
    by (clear; induction l as [|x l IH]; intros D S; constructor; inversion S as [|? ? S1 F1]; subst; cbn [map] in D; inversion D as [|? ? NI D1]; subst; [auto|];
        rewrite Forall_forall in *; intros y IY; specialize (F1 y IY); unfold id_le in F1; assert (fst x <> fst y) by (intros E; apply NI; rewrite E; apply in_map; exact IY); lia).
  all: apply G; [|apply sort_by_id_sorted]; eapply Permutation_NoDup; [apply Permutation_map; apply sort_by_id_perm|].
  - eapply Permutation_NoDup; [apply Permutation_map; exact P|exact D].
  - exact D.
Qed.

(** ** Tokenizers *)
Section tokenizers.
  Context {W : Type} (P : platform W).

  Lemma shuffled_saved g g' : rank_sort (pf_by_rank P) -> order_blind (pf_by_key P) -> unambiguous (g_model g) -> NoDup (map fst (av_map_r (g_added g))) -> shuffled g g' ->
    tokenizer_to_json P g' = tokenizer_to_json P g.
  Proof using.
    intros RS OB U D [H1 H2 H3 H4 H5 H6 H7 H8]. unfold tokenizer_to_json, av_save. rewrite (shuffled_json (pf_floats P) _ RS _ _ U H3), H1, H2, H5, H7, H8, (sort_by_id_blind _ _ D H6).
    replace (of_option (@proc_to_json W (pf_by_key P)) (g_post g')) with (of_option (@proc_to_json W (pf_by_key P)) (g_post g)); [reflexivity|].
    destruct (g_post g), (g_post g'); try contradiction; [|reflexivity]. cbn [of_option]. symmetry. apply proc_json_ext; assumption.
  Qed.

  Lemma made_inv m g ts : model_ok (model_vocabulary m) -> AddedSpec.dense (model_vocabulary m) -> made P m g ts -> g_model g = m /\ av_inv (model_vocabulary m) (g_added g).
  Proof using.
    intros MO DE. induction 1 as [|g ts n g' M IH H|g ts p M IH|g ts p M IH|g ts d M IH|g ts t M IH|g ts p M IH|g ts more g' n M IH H|g ts b M IH]; try exact IH.
    - split; [reflexivity|apply av_new_inv].
    - destruct IH as [A B]. unfold with_normalizer in H. set (g1 := mkConfig n (g_pre g) (g_model g) (g_post g) (g_decoder g) (g_added g) (g_truncation g) (g_padding g)) in *.
      destruct (av_refresh_normalized (pf_build P) (norm_fun P g1) (g_added g1)) as [av ok] eqn:EA. injection H as <- ->. pose proof (renormalize_core _ _ _ _ _ EA) as SC. cbn. split; [exact A|]. eapply av_inv_core; eassumption.
    - destruct IH as [A B]. unfold tokenizer_add in H.
      destruct (add_tokens (pf_build P) (model_vocabulary (g_model g)) (norm_fun P g) more (g_added g)) as [av r] eqn:EA. injection H as <- ->. rewrite A in EA. cbn. split; [exact A|].
      eapply (add_tokens_inv _ _ _ _ _ _ _ MO DE B EA).
    - destruct IH as [A B]. cbn. split; [exact A|]. eapply av_inv_core; [|exact B]. repeat split.
  Qed.

  Lemma part_model_of st k v st' m : part P st (k, v) = Ok st' -> pa_model st' = Some m -> pa_model st = Some m \/ model_of_json (pf_arith P) (pf_floats P) v = Ok m.
  Proof using.
    destruct st as [t p a n r q d m0]. cbn [part]. intros H.
    repeat match type of H with
    | (if str_eqb ?x ?y then _ else _) = _ => let E := fresh "E" in destruct (str_eqb x y) eqn:E; [apply str_eqb_eq in E; subst|]
    | (let! _ := ?x in _) = _ => let E := fresh "R" in destruct x eqn:E; cbn [bind] in H; try discriminate H
    end; try discriminate H; injection H as <-; cbn [pa_model]; auto. intros X. injection X as ->. auto.
  Qed.
  Lemma parts_model_of l m : forall st st', each_field (part P) st l = Ok st' -> pa_model st' = Some m -> pa_model st = Some m \/ exists v, model_of_json (pf_arith P) (pf_floats P) v = Ok m.
  Proof using.
    induction l as [|[k v] l IH]; intros st st' H M; cbn [each_field] in H; [injection H as <-; auto|].
    destruct (part P st (k, v)) as [st1| |] eqn:E; cbn [bind] in H; try discriminate. destruct (IH _ _ H M) as [X|X]; [|auto]. destruct (part_model_of _ _ _ _ _ E X); eauto.
  Qed.

  Lemma saved_again m g ts : platform_ok P -> order_blind (pf_by_key P) -> model_sound P m -> made P m g ts -> parts_valid P g ->
    exists j, tokenizer_to_json P g = Ok j /\ forall j' g', rearranged j j' -> tokenizer_of_json P j' = Ok g' -> tokenizer_to_json P g' = Ok j.
  Proof using.
    intros PO OB MS MD PV. pose proof (sound_ok P m MS) as MO. destruct (made_inv m g ts MO (proj1 (proj2 MS)) MD) as [EM I]. subst m.
    destruct (C66_saved (pf_arith P) (pf_floats P) (pf_by_rank P) (g_model g) (po_rank _ PO) (po_floats _ PO) (proj1 MS)) as (mv & EV & HM).
    destruct (saved_parts P g mv PO PV) as (j & EJ & HJ); [|apply (ai_keys_r _ _ I)|exact EV|].
    { intros j R. destruct (HM j R) as (m' & X & _ & Y). eauto. }
    exists j. split; [exact EJ|]. intros j' g' R L. destruct (HJ j' R) as (l & q & m' & -> & EF & SQ & SM).
    cbn [tokenizer_of_json] in L. rewrite EF in L. cbn [bind pa_model pa_normalizer pa_pre pa_post pa_decoder pa_truncation pa_padding pa_tokens] in L.
    match type of L with context [av_load ?b ?v ?n ?t] => destruct (av_load b v n t) as [av' [n0|]] eqn:EL end; [|discriminate]. injection L as <-.
    rewrite <- EJ. unfold tokenizer_to_json. cbn [set_added g_normalizer g_pre g_model g_post g_decoder g_added g_truncation g_padding].
    rewrite (loaded_json (pf_arith P) (pf_floats P) _ (po_rank _ PO) (g_model g) m' (proj1 MS) SM).
    2: { intros b ->. destruct (parts_model_of _ _ _ _ EF eq_refl) as [X|(v & X)]; [discriminate X|]. eapply model_keys. exact X. }
    unfold av_load in EL. rewrite (add_tokens_ext _ (model_vocabulary (g_model g))) in EL; [|split; apply (same_model_vocab P _ _ MS SM)].
    destruct (load_save _ _ _ (g_added g) av' n0 MO (proj1 (proj2 MS)) I EL) as [LD _].
    assert (ES : av_save av' = av_save (g_added g)).
    { unfold av_save. apply sort_by_id_blind; [apply (ai_keys_r _ _ I)|]. apply (same_aget_perm (av_map_r (g_added g))); [apply (ai_keys_r _ _ I)| |].
      - pose proof (add_tokens_inv _ _ _ _ _ _ _ MO (proj1 (proj2 MS)) (av_new_inv _) EL) as I'. apply (ai_keys_r _ _ I').
      - intros i. destruct (aget N.eqb i (av_map_r (g_added g))) as [t|] eqn:E.
        + apply (ld_map_r _ _ _ LD). apply (aget_In N.eqb N_eqb_eq). exact E.
        + destruct (aget N.eqb i (av_map_r av')) as [t|] eqn:E'; [|reflexivity]. apply (ld_map_r _ _ _ LD) in E'. apply (In_aget N.eqb N_eqb_eq) in E'; [congruence|apply (ai_keys_r _ _ I)]. }
    rewrite ES. replace (of_option (@proc_to_json W (pf_by_key P)) q) with (of_option (@proc_to_json W (pf_by_key P)) (g_post g)); [reflexivity|].
    destruct (g_post g), q; try contradiction; [|reflexivity]. cbn [of_option]. symmetry. apply proc_json_ext; assumption.
  Qed.

  Lemma map_res_in {A B} (f : A -> res file_error B) l : forall l', map_res f l = Ok l' -> forall y, In y l' -> exists x, In x l /\ f x = Ok y.
  Proof using.
    induction l as [|a l IH]; intros l' H y I; cbn [map_res] in H; [injection H as <-; destruct I|]. apply bind_ok in H. destruct H as (b & E & H). apply bind_ok in H. destruct H as (bs & E' & H). injection H as <-.
    destruct I as [<-|I]; [exists a; split; [left; reflexivity|exact E]|]. destruct (IH _ E' _ I) as (x & X & Y). exists x. split; [right; exact X|exact Y].
  Qed.
  Lemma part_tokens_of st k v st' : part P st (k, v) = Ok st' -> forall i t, In (i, t) (pa_tokens st') -> In (i, t) (pa_tokens st) \/
    (k = key "added_tokens" /\ exists items x, v = JArr items /\ In x items /\ as_added x = Ok (i, t)).
  Proof using.
    destruct st as [t p a n r q d m0]. cbn [part]. intros H.
    repeat match type of H with
    | (if str_eqb ?x ?y then _ else _) = _ => let E := fresh "E" in destruct (str_eqb x y) eqn:E; [apply str_eqb_eq in E; subst|]
    | (let! _ := ?x in _) = _ => let E := fresh "R" in destruct x eqn:E; cbn [bind] in H; try discriminate H
    end; try discriminate H; injection H as <-; cbn [pa_tokens]; auto. intros i u I. right. split; [reflexivity|]. destruct v; try discriminate R. cbn [as_vec] in R.
    destruct (map_res_in _ _ _ R _ I) as (x & X & Y). eauto.
  Qed.
  Lemma parts_tokens_of l : forall st st', each_field (part P) st l = Ok st' -> forall i t, In (i, t) (pa_tokens st') -> In (i, t) (pa_tokens st) \/
    exists items x, In (key "added_tokens", JArr items) l /\ In x items /\ as_added x = Ok (i, t).
  Proof using.
    induction l as [|[k v] l IH]; intros st st' H i t I; cbn [each_field] in H; [injection H as <-; auto|]. apply bind_ok in H. destruct H as (st1 & E & H).
    destruct (IH _ _ H i t I) as [X|(items & x & X & Y)]; [|right; exists items, x; split; [right; exact X|exact Y]].
    destruct (part_tokens_of _ _ _ _ E i t X) as [Z|(-> & items & x & -> & Z)]; [auto|]. right. exists items, x. split; [left; reflexivity|exact Z].
  Qed.

  (** What is loaded is one of the tokenizers that are made. *)
  Lemma loaded_made j g : tokenizer_of_json P j = Ok g -> exists ts, made P (g_model g) g ts /\ forall t, In t ts -> file_token j t.
  Proof using.
    destruct j as [| | | | |l|l]; try discriminate. cbn [tokenizer_of_json]. intros H. apply bind_ok in H. destruct H as (st & EF & H). destruct (pa_model st) as [m|]; [|discriminate].
    set (g0 := mkConfig (pa_normalizer st) (pa_pre st) m (pa_post st) (pa_decoder st) av_new (pa_truncation st) (pa_padding st)) in *.
    destruct (av_load (pf_build P) (model_vocabulary m) (norm_fun P g0) (pa_tokens st)) as [av [n|]] eqn:EL; [|discriminate]. injection H as <-. cbn [set_added g_model g0]. exists ([] ++ map snd (pa_tokens st)). split.
    2: { intros t I. apply in_map_iff in I. destruct I as ([i u] & E & I). cbn in E. subst u. destruct (parts_tokens_of _ _ _ EF i t I) as [[]|(items & x & X & Y & Z)]. exists l, items, x, i. auto. }
    apply (md_add P m g0 [] _ _ n); [|unfold tokenizer_add; unfold av_load in EL; cbn [g_model g_added g0] in *; rewrite EL; reflexivity].
    assert (X : made P m (mkConfig (pa_normalizer st) None m None None av_new None None) []).
    { apply (md_normalizer P m (tokenizer_new m) [] (pa_normalizer st)); [apply md_new|reflexivity]. }
    apply (md_pre _ _ _ _ (pa_pre st)) in X. apply (md_post _ _ _ _ (pa_post st)) in X. apply (md_decoder _ _ _ _ (pa_decoder st)) in X. apply (md_truncation _ _ _ _ (pa_truncation st)) in X. apply (md_padding _ _ _ _ (pa_padding st)) in X. exact X.
  Qed.

  Lemma option_inv {T} (read : json W -> res file_error T) v o : as_option read v = Ok o -> forall x, o = Some x -> read v = Ok x.
  Proof using. unfold as_option. destruct v; intros H x E; subst o; try discriminate; (apply bind_ok in H; destruct H as (y & -> & H); injection H as ->; reflexivity). Qed.
  Lemma nat_fits (v : json W) n : as_nat v = Ok n -> fits 64 (N.of_nat n).
  Proof using.
    unfold as_nat, as_usize. destruct v; try discriminate. destruct (N.ltb n0 (2 ^ 64)) eqn:E; [|discriminate]. cbn [bind]. intros H. injection H as <-. unfold fits. rewrite N2Nat.id. apply N.ltb_lt. exact E.
  Qed.
  Lemma need_inv {T} k (read : json W -> res file_error T) l x : need k read l = Ok x -> exists v, read v = Ok x.
  Proof using. unfold need. intros H. apply bind_ok in H. destruct H as ([v|] & _ & H); [eauto|discriminate]. Qed.
  Lemma u32_fits (v : json W) n : as_u32 v = Ok n -> fits 32 n.
  Proof using. unfold as_u32. destruct v; try discriminate. destruct (N.ltb n0 (2 ^ 32)) eqn:E; [|discriminate]. intros H. injection H as <-. apply N.ltb_lt. exact E. Qed.
  Lemma truncation_fits (v : json W) t : as_truncation v = Ok t -> fits 64 (N.of_nat (tp_max_length t)) /\ fits 64 (N.of_nat (tp_stride t)).
  Proof using.
    unfold as_truncation. destruct v; try discriminate. intros H. apply bind_ok in H. destruct H as (d & _ & H). apply bind_ok in H. destruct H as (n & N1 & H).
    apply bind_ok in H. destruct H as (s & _ & H). apply bind_ok in H. destruct H as (k & K1 & H). injection H as <-. cbn.
    apply need_inv in N1, K1. destruct N1 as (? & N1), K1 as (? & K1). split; eapply nat_fits; eassumption.
  Qed.
  Definition padding_fits p : Prop := fits 32 (pp_id p) /\ fits 32 (pp_type_id p) /\ when (pp_multiple p) (fun n => fits 64 (N.of_nat n)) /\
                               match pp_strategy p with Fixed n => fits 64 (N.of_nat n) | BatchLongest => True end.
  Lemma padding_loaded (v : json W) p : as_padding v = Ok p -> padding_fits p.
  Proof using.
    unfold as_padding. destruct v; try discriminate. intros H. apply bind_ok in H. destruct H as (s & S1 & H). apply bind_ok in H. destruct H as (d & _ & H).
    apply bind_ok in H. destruct H as (m & M1 & H). apply bind_ok in H. destruct H as (i & I1 & H). apply bind_ok in H. destruct H as (t & T1 & H). apply bind_ok in H. destruct H as (k & _ & H). injection H as <-.
    unfold padding_fits. cbn [pp_id pp_type_id pp_multiple pp_strategy]. apply need_inv in I1, T1, S1. destruct S1 as (x & S1), I1 as (? & I1), T1 as (? & T1).
    split; [eapply u32_fits; eassumption|]. split; [eapply u32_fits; eassumption|]. split.
    - unfold may in M1. apply bind_ok in M1. destruct M1 as ([v|] & _ & M1); [|injection M1 as <-; exact Logic.I]. destruct m as [n|]; [|exact Logic.I]. cbn. eapply nat_fits. eapply option_inv; [exact M1|reflexivity].
    - unfold as_pad_strategy in S1. destruct x as [| | | | |?|fl]; try discriminate; [destruct (str_eqb _ _); [injection S1 as <-; exact Logic.I|discriminate]|]. destruct fl as [|[? v] [|]]; try discriminate.
      destruct (str_eqb _ _); [|discriminate]. apply bind_ok in S1. destruct S1 as (n & S1 & E). injection E as <-. eapply nat_fits. exact S1.
  Qed.
  Definition sound_parts (st : @parts W) : Prop :=
    when (pa_normalizer st) (norm_valid (pf_engines P)) /\ when (pa_pre st) (pre_valid (pf_engines P)) /\ when (pa_post st) proc_valid /\ when (pa_decoder st) (dec_valid (pf_engines P)) /\
    when (pa_truncation st) (fun t => fits 64 (N.of_nat (tp_max_length t)) /\ fits 64 (N.of_nat (tp_stride t))) /\ when (pa_padding st) padding_fits.
  Lemma part_sound st k v st' : sound_parts st -> part P st (k, v) = Ok st' -> sound_parts st'.
  Proof using.
    destruct st as [t p a n r q d m0]. cbn [part]. intros (S1 & S2 & S3 & S4 & S5 & S6) H. cbn [pa_normalizer pa_pre pa_post pa_decoder pa_truncation pa_padding] in *.
    repeat match type of H with
    | (if str_eqb ?x ?y then _ else _) = _ => let E := fresh "E" in destruct (str_eqb x y) eqn:E; [apply str_eqb_eq in E; subst|]
    | (let! _ := ?x in _) = _ => let E := fresh "R" in destruct x eqn:E; cbn [bind] in H; try discriminate H
    end; try discriminate H; injection H as <-; unfold sound_parts; cbn [pa_normalizer pa_pre pa_post pa_decoder pa_truncation pa_padding];
      repeat split; try assumption;
      match goal with R : as_option _ _ = Ok ?o |- when ?o _ => destruct o as [y|]; [pose proof (option_inv _ _ _ R _ eq_refl) as X; cbn [when]|exact Logic.I] end.
    - eapply truncation_fits; eassumption.
    - eapply padding_loaded; eassumption.
    - exact (good_norm _ _ _ X).
    - exact (good_pre _ _ _ X).
    - exact (good_dec _ _ _ X).
    - exact (good_proc _ _ X).
  Qed.
  Lemma parts_sound l : forall st st', sound_parts st -> each_field (part P) st l = Ok st' -> sound_parts st'.
  Proof using.
    induction l as [|[k v] l IH]; intros st st' S H; cbn [each_field] in H; [injection H as <-; exact S|]. apply bind_ok in H. destruct H as (st1 & E & H). eapply IH; [|exact H]. eapply part_sound; eassumption.
  Qed.
  Lemma loaded_parts j g : tokenizer_of_json P j = Ok g -> (forall i t, aget N.eqb i (av_map_r (g_added g)) = Some t -> fits 32 i) -> parts_valid P g.
  Proof using.
    intros H HI. destruct j as [| | | | |l|l]; try discriminate. cbn [tokenizer_of_json] in H. apply bind_ok in H. destruct H as (st & E & H).
    assert (S : sound_parts st) by (eapply parts_sound; [|exact E]; repeat split; exact Logic.I). destruct S as (S1 & S2 & S3 & S4 & S5 & S6).
    destruct (pa_model st) as [m|]; [|discriminate]. match type of H with context [av_load ?b ?v ?n ?t] => destruct (av_load b v n t) as [av' [n0|]] end; [|discriminate]. injection H as <-. cbn in HI.
    unfold parts_valid. cbn [set_added g_normalizer g_pre g_post g_decoder g_truncation g_padding g_added]. repeat (split; [assumption|]). exact HI.
  Qed.
End tokenizers.
