(** Sums over segmentations. *)
From Coq Require Import Permutation Ring.
From Verif Require Import Base StrBytes ListFacts AMap Utf8 EncodingModel BpeWordModel BpeModel TrieModel UnigramModel UnigramSpec UnigramProofs UnigramProofs2 MarginalModel MarginalSpec.

Lemma nodup_flat {X Y} (f : Y -> list X) (ys : list Y) : NoDup ys -> (forall y, In y ys -> NoDup (f y)) -> (forall y y' x, In y ys -> In y' ys -> In x (f y) -> In x (f y') -> y = y') -> NoDup (flat_map f ys).
Proof.
  induction ys as [|y ys IH]; intros D F I; [constructor|]. inversion D as [|? ? NI D']; subst. cbn [flat_map]. apply NoDup_join.
  - apply F. left. reflexivity.
  - apply IH; [exact D'|intros z Hz; apply F; right; exact Hz|]. intros a b x Ha Hb. apply I; right; assumption.
  - intros x H1 H2. apply in_flat_map in H2. destruct H2 as (z & Hz & H2). apply NI. rewrite (I y z x); auto; [left; reflexivity|right; exact Hz].
Qed.

Lemma nodup_map_inj {X Y} (f : X -> Y) (l : list X) : NoDup l -> (forall a b, In a l -> In b l -> f a = f b -> a = b) -> NoDup (map f l).
Proof.
  induction l as [|x l IH]; intros D I; [constructor|]. inversion D as [|? ? NI D']; subst. cbn. constructor.
  - intros H. apply in_map_iff in H. destruct H as (y & E & Hy). apply NI. rewrite (I x y); auto; [left; reflexivity|right; exact Hy].
  - apply IH; [exact D'|]. intros a b Ha Hb. apply I; right; assumption.
Qed.

Section sums.
  Context {W K : Type} (A : arith W) (M : marith W K) (zero one : K) (inv : K -> K) (HX : exact_marith A M zero one inv).
  Add Ring Kring : (xm_ring _ _ _ _ _ HX).
  Notation ksum := (ksum M zero).
  Infix "+K" := (ma_plus M) (at level 50, left associativity).
  Infix "*K" := (ma_mul M) (at level 40, left associativity).

  Lemma ksum_app a b : ksum (a ++ b) = ksum a +K ksum b.
  Proof. unfold MarginalSpec.ksum. induction a as [|x a IH]; cbn; [ring|]. rewrite IH. ring. Qed.
  Lemma ksum_perm a b : Permutation a b -> ksum a = ksum b.
  Proof. unfold MarginalSpec.ksum. induction 1 as [|x a b P IH|x y a|a b c P1 IH1 P2 IH2]; cbn; [reflexivity|rewrite IH; reflexivity|ring|congruence]. Qed.
  Lemma ksum_flat {X Y} (w : X -> K) (f : Y -> list X) ys : ksum (map w (flat_map f ys)) = ksum (map (fun y => ksum (map w (f y))) ys).
  Proof. induction ys as [|y ys IH]; [reflexivity|]. cbn [flat_map map]. rewrite map_app, ksum_app, IH. reflexivity. Qed.
  Lemma ksum_scale {X} (w : X -> K) k xs : ksum (map (fun x => k *K w x) xs) = k *K ksum (map w xs).
  Proof. unfold MarginalSpec.ksum. induction xs as [|x xs IH]; cbn; [ring|]. rewrite IH. ring. Qed.
  Lemma ksum_ext {X} (w w' : X -> K) xs : (forall x, In x xs -> w x = w' x) -> ksum (map w xs) = ksum (map w' xs).
  Proof. intros H. f_equal. apply map_ext_in. exact H. Qed.
  Lemma ksum_zero {X} (w : X -> K) xs : (forall x, In x xs -> w x = zero) -> ksum (map w xs) = zero.
  Proof. induction xs as [|x xs IH]; intros H; [reflexivity|]. cbn. rewrite (H x) by (left; reflexivity). fold (ksum (map w xs)). rewrite IH by (intros y Y; apply H; right; exact Y). ring. Qed.

  (** A sum in another order: the terms of [xs] are those of the [f y]. *)
  Lemma ksum_reindex {X Y} (w : X -> K) (xs : list X) (ys : list Y) (f : Y -> list X) : NoDup xs -> NoDup ys -> (forall y, In y ys -> NoDup (f y)) ->
    (forall y y' x, In y ys -> In y' ys -> In x (f y) -> In x (f y') -> y = y') -> (forall x, In x xs <-> exists y, In y ys /\ In x (f y)) ->
    ksum (map w xs) = ksum (map (fun y => ksum (map w (f y))) ys).
  Proof.
    intros D1 D2 DF IJ IFF. rewrite <- ksum_flat. apply ksum_perm, Permutation_map, NoDup_Permutation; [exact D1|apply nodup_flat; assumption|]. intros x. rewrite IFF, in_flat_map. reflexivity.
  Qed.

  Context (m : unigram W) (Hwf : wf m).
  Notation item := (str * N * W)%type.
  Notation lik := (likelihood M one).
  Notation text := (fun it : item => fst (fst it)).

  (** ** Enumerating segmentations *)
  Definition item_for (x : str) : option item :=
    match aget str_eqb x (u_ids m) with
    | Some id => match u_item m id with Some (_, w) => Some (x, id, w) | None => None end
    | None => match x, u_unk m with [c], Some u => Some ([c], u, unk_score A m) | _, _ => None end
    end.

  Lemma item_for_spec x it : x <> [] -> (item_for x = Some it <-> item_ok A m it /\ text it = x).
  Proof.
    intros NE. destruct it as [[y id] w]. cbn [fst snd]. unfold item_for, item_ok.
    destruct (aget str_eqb x (u_ids m)) as [id'|] eqn:E.
    - assert (E' := E). apply (wf_ids m Hwf) in E. destruct E as (w' & LE). unfold u_item. rewrite (proj1 LE). split.
      + intros X. injection X as <- <- <-. split; [left; auto|reflexivity].
      + intros [[[_ LE']|(c & -> & NI & _)] EQ]; subst.
        * destruct (last_entry_fun _ _ _ _ _ _ LE LE') as [-> ->]. reflexivity.
        * exfalso. apply NI. apply (last_entry_in _ _ _ _ LE).
    - assert (NI : ~ In x (map fst (u_vocab m))).
      { intros I. destruct (last_entry_exists _ _ I) as (id' & w' & LE). assert (X : aget str_eqb x (u_ids m) = Some id') by (apply (wf_ids m Hwf); eauto). congruence. }
      split.
      + destruct x as [|c [|c2 x]]; try discriminate. destruct (u_unk m) as [u|]; [|discriminate]. intros X. injection X as <- <- <-. split; [right; eauto|reflexivity].
      + intros [[[_ LE]|(c & -> & _ & U & ->)] EQ]; subst.
        * exfalso. apply NI, (last_entry_in _ _ _ _ LE).
        * rewrite U. reflexivity.
  Qed.

  Fixpoint enum (fuel : nat) (x : str) : list (list item) :=
    match x, fuel with
    | [], _ => [[]]
    | _, O => []
    | _, S f => flat_map (fun k => match item_for (firstn k x) with Some it => map (cons it) (enum f (skipn k x)) | None => [] end) (seq 1 (length x))
    end.
  Notation segs := (fun x => enum (length x) x).

  Lemma item_text it : item_ok A m it -> text it <> [].
  Proof. destruct it as [[x id] w]. cbn. intros [[H _]|(c & -> & _)]; [exact H|discriminate]. Qed.

  Lemma enum_spec fuel : forall x, length x <= fuel -> NoDup (enum fuel x) /\ forall seg, In seg (enum fuel x) <-> segmentation A m x seg.
  Proof.
    induction fuel as [|fuel IH]; intros x L.
    - destruct x; [|cbn in L; lia]. cbn. split; [repeat constructor; intros []|]. intros seg. split.
      + intros [<-|[]]. split; [constructor|reflexivity].
      + intros [F E]. destruct seg as [|it seg]; [auto|]. exfalso. inversion F; subst. cbn in E. apply app_eq_nil in E. apply (item_text it); tauto.
    - destruct x as [|c x0] eqn:EX.
      { cbn. split; [repeat constructor; intros []|]. intros seg. split.
        + intros [<-|[]]. split; [constructor|reflexivity].
        + intros [F E]. destruct seg as [|it seg]; [auto|]. exfalso. inversion F; subst. cbn in E. apply app_eq_nil in E. apply (item_text it); tauto. }
      rewrite <- EX in *. assert (NX : x <> []) by (subst; discriminate). replace (enum (S fuel) x) with (flat_map (fun k => match item_for (firstn k x) with Some it => map (cons it) (enum fuel (skipn k x)) | None => [] end) (seq 1 (length x))) by (rewrite EX; reflexivity). clear EX c x0.
      assert (NF : forall k, In k (seq 1 (length x)) -> firstn k x <> [] /\ length (firstn k x) = k /\ length (skipn k x) <= fuel).
      { intros k Hk. apply in_seq in Hk. rewrite firstn_length, skipn_length. split; [|lia]. destruct k, x; cbn in Hk |- *; try lia; discriminate. }
      split.
      + apply nodup_flat; [apply seq_NoDup| |].
        * intros k Hk. destruct (NF k Hk) as (N1 & N2 & N3). destruct (item_for (firstn k x)); [|constructor]. apply nodup_map_inj; [apply IH; exact N3|]. intros a b _ _ E. injection E as ->. reflexivity.
        * intros k k' sg Hk Hk' H1 H2. destruct (NF k Hk) as (N1 & N2 & _). destruct (NF k' Hk') as (N1' & N2' & _).
          destruct (item_for (firstn k x)) as [it|] eqn:E1; [|contradiction]. destruct (item_for (firstn k' x)) as [it'|] eqn:E2; [|contradiction].
          apply in_map_iff in H1, H2. destruct H1 as (sg1 & <- & _). destruct H2 as (sg2 & E & _). injection E as <- _.
          apply item_for_spec in E1; [|exact N1]. apply item_for_spec in E2; [|exact N1']. destruct E1 as [_ E1]. destruct E2 as [_ E2]. rewrite <- N2, <- N2', <- E1, <- E2. reflexivity.
      + intros sg. rewrite in_flat_map. split.
        * intros (k & Hk & H). destruct (NF k Hk) as (N1 & N2 & N3). destruct (item_for (firstn k x)) as [it|] eqn:E; [|contradiction]. apply in_map_iff in H. destruct H as (sg1 & <- & H). apply IH in H; [|exact N3]. destruct H as [F C].
          apply item_for_spec in E; [|exact N1]. destruct E as [IO T]. split; [constructor; assumption|]. cbn [texts map concat]. rewrite T. unfold texts in C. rewrite C. apply firstn_skipn.
        * intros [F C]. destruct sg as [|it sg]; [cbn in C; congruence|]. inversion F as [|? ? IO F']; subst. cbn [texts map concat] in *. fold (texts sg) in *. pose proof (item_text it IO) as NT.
          exists (length (text it)). assert (K1 : firstn (length (text it)) (text it ++ concat (texts sg)) = text it) by (rewrite firstn_app, Nat.sub_diag, firstn_all, app_nil_r; reflexivity).
          assert (K2 : skipn (length (text it)) (text it ++ concat (texts sg)) = concat (texts sg)) by (rewrite skipn_app, Nat.sub_diag, skipn_all; reflexivity).
          split; [apply in_seq; rewrite app_length; destruct (text it); [congruence|cbn; lia]|]. cbn beta in K1, K2. rewrite K1, K2.
          replace (item_for (text it)) with (Some it) by (symmetry; apply item_for_spec; auto). apply in_map. apply IH; [|split; [exact F'|reflexivity]].
          rewrite app_length in L. destruct (text it); [congruence|cbn in L; lia].
  Qed.
  Lemma segs_nodup x : NoDup (segs x).
  Proof. apply enum_spec. lia. Qed.
  Lemma segs_in x sg : In sg (segs x) <-> segmentation A m x sg.
  Proof. apply enum_spec. lia. Qed.

  (** The likelihood of a text. *)
  Definition mass (x : str) : K := ksum (map lik (segs x)).

  Lemma mass_nil : mass [] = one.
  Proof. unfold mass, MarginalSpec.ksum. cbn. ring. Qed.
  Lemma evidence_mass x l : all_segmentations A m x l -> evidence M zero one l = mass x.
  Proof.
    intros [D I]. unfold evidence, mass. apply ksum_perm, Permutation_map, NoDup_Permutation; [exact D|apply segs_nodup|]. intros sg. rewrite I, segs_in. reflexivity.
  Qed.
  Lemma lik_app a b : lik (a ++ b) = lik a *K lik b.
  Proof. unfold likelihood. induction a as [|x a IH]; cbn; [ring|]. rewrite IH. ring. Qed.

  (** The last item, over the pairs of a rest and a last item. *)
  Lemma mass_last x (E : list (str * item)) : x <> [] -> NoDup E -> (forall q it, In (q, it) E <-> item_ok A m it /\ q ++ text it = x) ->
    mass x = ksum (map (fun e => ma_exp M (snd (snd e)) *K mass (fst e)) E).
  Proof.
    intros NX D IFF. unfold mass at 1. rewrite (ksum_reindex lik (segs x) E (fun e => map (fun sg => sg ++ [snd e]) (segs (fst e)))).
    - apply ksum_ext. intros [q it] _. cbn [fst snd]. rewrite map_map. unfold mass. rewrite <- ksum_scale. apply ksum_ext. intros sg _. rewrite lik_app. cbn. ring.
    - apply segs_nodup.
    - exact D.
    - intros [q it] _. apply nodup_map_inj; [apply segs_nodup|]. intros a b _ _ EQ. apply app_inj_tail in EQ. tauto.
    - intros [q it] [q' it'] sg H1 H2 I1 I2. cbn [fst snd] in *. apply in_map_iff in I1, I2. destruct I1 as (s1 & <- & _). destruct I2 as (s2 & EQ & _). apply app_inj_tail in EQ. destruct EQ as [_ <-].
      apply IFF in H1, H2. destruct H1 as [_ H1]. destruct H2 as [_ H2]. rewrite <- H2 in H1. apply app_inv_tail in H1. congruence.
    - intros sg. rewrite segs_in. split.
      + intros [F C]. destruct (exists_last (l := sg)) as (s1 & it & ->); [intros ->; cbn in C; congruence|]. apply Forall_app in F. destruct F as [F1 F2]. inversion F2 as [|? ? IO _]; subst.
        exists (concat (texts s1), it). cbn [fst snd]. split.
        * apply IFF. split; [exact IO|]. unfold texts. rewrite map_app, concat_app. cbn. rewrite app_nil_r. reflexivity.
        * apply in_map_iff. exists s1. split; [reflexivity|]. apply segs_in. split; [exact F1|reflexivity].
      + intros ([q it] & HE & H). cbn [fst snd] in H. apply in_map_iff in H. destruct H as (s1 & <- & H). apply segs_in in H. destruct H as [F C]. apply IFF in HE. destruct HE as [IO EX].
        split; [apply Forall_app; split; [exact F|constructor; [exact IO|constructor]]|]. unfold texts in *. rewrite map_app, concat_app, C. cbn. rewrite app_nil_r. exact EX.
  Qed.

  (** The first item. *)
  Lemma mass_first x (E : list (item * str)) : x <> [] -> NoDup E -> (forall it q, In (it, q) E <-> item_ok A m it /\ text it ++ q = x) ->
    mass x = ksum (map (fun e => ma_exp M (snd (fst e)) *K mass (snd e)) E).
  Proof.
    intros NX D IFF. unfold mass at 1. rewrite (ksum_reindex lik (segs x) E (fun e => map (cons (fst e)) (segs (snd e)))).
    - apply ksum_ext. intros [it q] _. cbn [fst snd]. rewrite map_map. unfold mass. rewrite <- ksum_scale. apply ksum_ext. intros sg _. reflexivity.
    - apply segs_nodup.
    - exact D.
    - intros [it q] _. apply nodup_map_inj; [apply segs_nodup|]. intros a b _ _ EQ. injection EQ as ->. reflexivity.
    - intros [it q] [it' q'] sg H1 H2 I1 I2. cbn [fst snd] in *. apply in_map_iff in I1, I2. destruct I1 as (s1 & <- & _). destruct I2 as (s2 & EQ & _). injection EQ as <- _.
      apply IFF in H1, H2. destruct H1 as [_ H1]. destruct H2 as [_ H2]. rewrite <- H2 in H1. apply app_inv_head in H1. congruence.
    - intros sg. rewrite segs_in. split.
      + intros [F C]. destruct sg as [|it s1]; [cbn in C; congruence|]. inversion F as [|? ? IO F']; subst. exists (it, concat (texts s1)). cbn [fst snd]. split; [apply IFF; auto|].
        apply in_map, segs_in. split; [exact F'|reflexivity].
      + intros ([it q] & HE & H). cbn [fst snd] in H. apply in_map_iff in H. destruct H as (s1 & <- & H). apply segs_in in H. destruct H as [F C]. apply IFF in HE. destruct HE as [IO EX].
        split; [constructor; assumption|]. cbn [texts map concat]. fold (texts s1). rewrite C. exact EX.
  Qed.

  (** ** The occurrences of an id *)
  Fixpoint splits (sg : list item) : list (list item * item * list item) :=
    match sg with
    | [] => []
    | it :: r => ([], it, r) :: map (fun e => (it :: fst (fst e), snd (fst e), snd e)) (splits r)
    end.
  Lemma splits_in sg l it r : In (l, it, r) (splits sg) <-> sg = l ++ it :: r.
  Proof.
    revert l. induction sg as [|x sg IH]; intros l; cbn.
    - split; [tauto|]. intros E. destruct l; discriminate.
    - rewrite in_map_iff. split.
      + intros [E|([[l1 it1] r1] & E & H)]; [injection E as <- <- <-; reflexivity|]. cbn in E. injection E as <- <- <-. apply IH in H. rewrite H. reflexivity.
      + intros E. destruct l as [|y l]; cbn in E; injection E as -> ->; [left; reflexivity|]. right. exists (l, it, r). split; [reflexivity|]. apply IH. reflexivity.
  Qed.
  Lemma splits_nodup sg : NoDup (splits sg).
  Proof.
    induction sg as [|x sg IH]; cbn; [constructor|]. constructor.
    - intros H. apply in_map_iff in H. destruct H as (e & E & _). discriminate.
    - apply nodup_map_inj; [exact IH|]. intros [[l1 i1] r1] [[l2 i2] r2] _ _ E. cbn in E. congruence.
  Qed.
  Definition here (id : N) (it : item) : bool := N.eqb id (snd (fst it)).
  Lemma times_splits id sg : times M zero one id sg = ksum (map (fun e => if here id (snd (fst e)) then one else zero) (splits sg)).
  Proof.
    unfold times. induction sg as [|x sg IH]; [reflexivity|]. cbn [splits map]. rewrite map_map. cbn [MarginalSpec.ksum fold_right fst snd]. unfold MarginalSpec.ksum in IH. rewrite IH. reflexivity.
  Qed.

  Lemma ksum_filter {X} (b : X -> bool) (w : X -> K) xs : ksum (map (fun x => if b x then w x else zero) xs) = ksum (map w (filter b xs)).
  Proof. unfold MarginalSpec.ksum. induction xs as [|x xs IH]; [reflexivity|]. cbn. destruct (b x); cbn; rewrite IH; [reflexivity|ring]. Qed.

  Lemma weighted_occurrences s l id (E : list (str * item * str)) : all_segmentations A m s l -> NoDup E ->
    (forall p it q, In (p, it, q) E <-> item_ok A m it /\ p ++ text it ++ q = s) ->
    weighted_count M zero one id l = ksum (map (fun e => mass (fst (fst e)) *K ma_exp M (snd (snd (fst e))) *K mass (snd e)) (filter (fun e => here id (snd (fst e))) E)).
  Proof.
    intros [DL IL] DE IE. unfold weighted_count.
    transitivity (ksum (map (fun e => lik (fst (fst e)) *K ma_exp M (snd (snd (fst e))) *K lik (snd e)) (filter (fun e => here id (snd (fst e))) (flat_map splits l)))).
    - rewrite <- ksum_filter, ksum_flat. apply ksum_ext. intros sg _. rewrite times_splits, <- ksum_scale. apply ksum_ext. intros [[a it] b] H. apply splits_in in H. subst sg. cbn [fst snd].
      destruct (here id it); [|ring]. rewrite lik_app. change (lik (it :: b)) with (ma_exp M (snd it) *K lik b). ring.
    - set (f := fun e : str * item * str => flat_map (fun a => map (fun b => (a, snd (fst e), b)) (segs (snd e))) (segs (fst (fst e)))).
      rewrite (ksum_reindex _ _ (filter (fun e => here id (snd (fst e))) E) f).
      + apply ksum_ext. intros [[p it] q] _. unfold f. cbn [fst snd]. rewrite ksum_flat. unfold mass.
        transitivity (ksum (map (fun a => (ma_exp M (snd it) *K mass q) *K lik a) (segs p))).
        * apply ksum_ext. intros a _. rewrite map_map. cbn [fst snd]. transitivity (ksum (map (fun b => (lik a *K ma_exp M (snd it)) *K lik b) (segs q))); [apply ksum_ext; intros; ring|]. rewrite ksum_scale. unfold mass. ring.
        * rewrite ksum_scale. unfold mass. ring.
      + apply NoDup_filter, nodup_flat; [exact DL|intros; apply splits_nodup|]. intros s1 s2 [[a it] b] _ _ H1 H2. apply splits_in in H1, H2. congruence.
      + apply NoDup_filter. exact DE.
      + intros [[p it] q] _. unfold f. cbn [fst snd]. apply nodup_flat; [apply segs_nodup| |].
        * intros a _. apply nodup_map_inj; [apply segs_nodup|]. intros b b' _ _ X. congruence.
        * intros a a' x _ _ H1 H2. apply in_map_iff in H1, H2. destruct H1 as (b & <- & _). destruct H2 as (b' & X & _). congruence.
      + intros [[p it] q] [[p' it'] q'] x _ _ H1 H2. unfold f in H1, H2. cbn [fst snd] in *. apply in_flat_map in H1, H2. destruct H1 as (a & Ha & H1). destruct H2 as (a' & Ha' & H2).
        apply in_map_iff in H1, H2. destruct H1 as (b & <- & Hb). destruct H2 as (b' & X & Hb'). injection X as -> -> ->. apply segs_in in Ha, Ha', Hb, Hb'. destruct Ha as [_ Ha], Ha' as [_ Ha'], Hb as [_ Hb], Hb' as [_ Hb']. congruence.
      + intros [[a it] b]. rewrite filter_In, in_flat_map. cbn [fst snd]. split.
        * intros [(sg & Hs & H) HI]. apply splits_in in H. apply IL in Hs. destruct Hs as [F C]. subst sg. apply Forall_app in F. destruct F as [F1 F2]. inversion F2 as [|? ? IO F3]; subst.
          exists (concat (texts a), it, concat (texts b)). split.
          -- apply filter_In. split; [|exact HI]. apply IE. split; [exact IO|]. unfold texts. rewrite map_app, concat_app. reflexivity.
          -- unfold f. cbn [fst snd]. apply in_flat_map. exists a. split; [apply segs_in; split; [exact F1|reflexivity]|]. apply in_map_iff. exists b. split; [reflexivity|]. apply segs_in. split; [exact F3|reflexivity].
        * intros ([[p it'] q] & H & H2). apply filter_In in H. cbn [fst snd] in *. destruct H as [HE HI]. unfold f in H2. cbn [fst snd] in H2. apply in_flat_map in H2. destruct H2 as (a' & Ha & H2). apply in_map_iff in H2. destruct H2 as (b' & X & Hb). injection X as -> -> ->.
          split; [|exact HI]. apply segs_in in Ha, Hb. destruct Ha as [F1 C1], Hb as [F2 C2]. apply IE in HE. destruct HE as [IO ES]. exists (a ++ it :: b). split; [|apply splits_in; reflexivity]. apply IL.
          split; [apply Forall_app; split; [exact F1|constructor; assumption]|]. unfold texts in *. rewrite map_app, concat_app. cbn. rewrite C1, C2. exact ES.
  Qed.
End sums.
