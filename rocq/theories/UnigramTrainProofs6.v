(** How often pieces are used, and what is lost without them. *)
From Coq Require Import Permutation Sorted.
From Verif Require Import Base StrBytes ListFacts AMap Utf8 EncodingModel BpeWordModel BpeWordProofs BpeModel UnigramModel UnigramSpec UnigramProofs UnigramProps NBestSpec NBestProps MarginalModel TrainersModel UnigramTrainModel UnigramTrainSpec UnigramTrainProofs UnigramTrainProofs2 UnigramTrainProofs3 UnigramTrainProofs4 UnigramTrainProofs5.

Lemma nth_upd {X} (l : list X) k f i d : k < length l -> nth i (upd l k f) d = if k =? i then f (nth i l d) else nth i l d.
Proof.
  intros H. destruct (nth_error (upd l k f) i) as [x|] eqn:E.
  - rewrite (nth_error_nth _ _ d E). rewrite nth_error_upd in E. destruct (Nat.eqb_spec k i) as [->|N].
    + destruct (nth_error l i) as [y|] eqn:E2; [|discriminate]. cbn in E. injection E as <-. rewrite (nth_error_nth _ _ d E2). reflexivity.
    + rewrite (nth_error_nth _ _ d E). reflexivity.
  - rewrite nth_overflow by (apply nth_error_None; exact E). rewrite nth_error_upd in E. destruct (Nat.eqb_spec k i) as [->|N].
    + destruct (nth_error l i) eqn:E2; [discriminate|]. apply nth_error_None in E2. lia.
    + rewrite nth_overflow; [reflexivity|]. apply nth_error_None. exact E.
Qed.

Section uses.
  Context {W : Type} (A : arith W) (T : tarith W) (m : unigram W) (Hm : made A m) (u : N) (Hu : u_unk m = Some u).
  Notation add := (a_add A).
  Notation zero := (a_zero A).
  Context (n : nat) (Hn : n = length (u_vocab m)).

  Lemma tally_spec i count ids : Forall (fun k => k < n) ids -> forall freq inv, length freq = n -> length inv = n ->
    exists freq' inv', tally A i count ids (freq, inv) = Ok (freq', inv') /\ length freq' = n /\ length inv' = n /\
      forall id, id < n -> nth id freq' zero = fold_left add (repeat count (count_occ Nat.eq_dec ids id)) (nth id freq zero) /\ nth id inv' [] = nth id inv [] ++ repeat i (count_occ Nat.eq_dec ids id).
  Proof.
    clear Hn. induction 1 as [|k ids Hk F IH]; intros freq inv LF LI; cbn [tally].
    - exists freq, inv. split; [reflexivity|]. split; [exact LF|]. split; [exact LI|]. intros id _. cbn. rewrite app_nil_r. auto.
    - cbn [fst snd]. destruct (nth_error freq k) as [x|] eqn:E1; [|apply nth_error_None in E1; lia]. destruct (nth_error inv k) as [y|] eqn:E2; [|apply nth_error_None in E2; lia]. cbn [of_option bind].
      destruct (IH (upd freq k (fun x => add x count)) (upd inv k (fun l => l ++ [i]))) as (f' & i' & E & L1 & L2 & V); [rewrite upd_length; exact LF|rewrite upd_length; exact LI|].
      exists f', i'. split; [exact E|]. split; [exact L1|]. split; [exact L2|]. intros id Hid. destruct (V id Hid) as [V1 V2]. rewrite V1, V2, !nth_upd by lia. cbn [count_occ]. destruct (Nat.eqb_spec k id) as [->|N].
      + destruct (Nat.eq_dec id id) as [_|X]; [|congruence]. cbn [repeat fold_left]. split; [reflexivity|]. rewrite <- app_assoc. reflexivity.
      + destruct (Nat.eq_dec k id) as [X|_]; [congruence|]. auto.
  Qed.

  (** Words with their numbers and segmentations. *)
  Notation word := (nat * (str * N))%type.
  Notation segs_of := (Forall2 (fun (w : word) seg => chosen A m (fst (snd w)) seg)).
  Definition freqs (ws : list word) (segs : list (list (str * N * W))) (id : nat) : list W :=
    concat (zip_with (fun w seg => repeat (ta_of T (snd (snd w))) (uses_in id seg)) ws segs).
  Definition places (ws : list word) (segs : list (list (str * N * W))) (id : nat) : list nat :=
    concat (zip_with (fun w seg => repeat (fst w) (uses_in id seg)) ws segs).

  Lemma use_chunk_spec ws : Forall (fun w : word => text_ok (fst (snd w))) ws -> forall v freq inv, length freq = n -> length inv = n ->
    exists segs freq' inv', segs_of ws segs /\ use_chunk A T m ws (v, (freq, inv)) = Ok (fold_left add (map (fun w => ta_of T (snd (snd w))) ws) v, (freq', inv')) /\ length freq' = n /\ length inv' = n /\
      forall id, id < n -> nth id freq' zero = fold_left add (freqs ws segs id) (nth id freq zero) /\ nth id inv' [] = nth id inv [] ++ places ws segs id.
  Proof.
    induction 1 as [|[i [s k]] ws Hs F IH]; intros v freq inv LF LI; cbn [use_chunk].
    - exists [], freq, inv. split; [constructor|]. split; [reflexivity|]. split; [exact LF|]. split; [exact LI|]. intros id _. cbn. rewrite app_nil_r. auto.
    - cbn [fst snd] in Hs. destruct (chosen_exists A m Hm u Hu s Hs) as (seg & CH). pose proof CH as [SG (la & nodes & path & E1 & E2 & R)]. rewrite E1. cbn [bind]. rewrite E2. cbn [bind snd]. rewrite (read_ids la path seg R). cbn [bind fst].
      pose proof (seg_range A m Hm s seg SG) as RG. rewrite <- Hn in RG. destruct (tally_spec i (ta_of T k) (seg_ids seg) RG freq inv LF LI) as (f1 & i1 & E3 & L1 & L2 & V). rewrite E3. cbn [bind].
      destruct (IH (add v (ta_of T k)) f1 i1 L1 L2) as (segs & f' & i' & C & E & L3 & L4 & V'). exists (seg :: segs), f', i'. split; [constructor; [exact CH|exact C]|]. split; [exact E|]. split; [exact L3|]. split; [exact L4|].
      intros id Hid. destruct (V id Hid) as [V1 V2], (V' id Hid) as [V3 V4]. rewrite V3, V4, V1, V2. unfold freqs, places, uses_in. cbn [zip_with concat fst snd]. fold (seg_ids seg). split; [symmetry; apply fold_left_app|]. rewrite <- app_assoc. reflexivity.
  Qed.

  (** *** All chunks *)
  Context (whole : W -> Prop) (HW : whole_laws A T whole).
  Definition uses_ok (x : W * (list W * list (list nat))) : Prop := whole (fst x) /\ length (fst (snd x)) = n /\ Forall whole (fst (snd x)) /\ length (snd (snd x)) = n.

  Lemma whole_fold l : Forall whole l -> whole (wsum A l).
  Proof. intros F. apply (fold_P _ _ whole (wh_zero _ _ _ HW) (wh_add _ _ _ HW)). exact F. Qed.
  Lemma whole_left l : Forall whole l -> forall v, whole v -> fold_left add l v = add v (wsum A l).
  Proof.
    induction 1 as [|x l Hx F IH]; intros v Hv; cbn [fold_left wsum fold_right]; [symmetry; apply (wh_zero_r _ _ _ HW); exact Hv|]. rewrite IH by (apply (wh_add _ _ _ HW); assumption).
    symmetry. apply (wh_assoc _ _ _ HW); [exact Hv|exact Hx|]. apply whole_fold. exact F.
  Qed.
  Lemma whole_left0 l : Forall whole l -> fold_left add l zero = wsum A l.
  Proof. intros F. rewrite whole_left by (try assumption; apply (wh_zero _ _ _ HW)). apply (wh_zero_l _ _ _ HW). apply whole_fold. exact F. Qed.
  Lemma whole_app a b : Forall whole a -> Forall whole b -> wsum A (a ++ b) = add (wsum A a) (wsum A b).
  Proof. intros Fa Fb. apply (fold_app zero add whole); try assumption; [apply (wh_zero _ _ _ HW)|apply (wh_add _ _ _ HW)|apply (wh_zero_l _ _ _ HW)|apply (wh_assoc _ _ _ HW)]. Qed.
  Lemma freqs_whole ws : forall segs id, Forall whole (freqs ws segs id).
  Proof.
    unfold freqs. induction ws as [|w ws IH]; intros [|seg segs] id; cbn [zip_with concat]; try constructor. apply Forall_app. split; [|apply IH]. apply Forall_forall. intros x Hx. apply repeat_spec in Hx. subst x. apply (wh_of _ _ _ HW).
  Qed.

  Lemma zip_assoc_on {X} (f : X -> X -> X) (P : X -> Prop) : (forall x y z, P x -> P y -> P z -> f x (f y z) = f (f x y) z) ->
    forall a b c, Forall P a -> Forall P b -> Forall P c -> zip_with f a (zip_with f b c) = zip_with f (zip_with f a b) c.
  Proof. intros H a b c Fa. revert b c. induction Fa as [|x a Px Fa IH]; intros b c Fb Fc; [reflexivity|]. destruct Fb as [|y b Py Fb]; [destruct c; reflexivity|]. destruct Fc as [|z c Pz Fc]; [reflexivity|]. cbn. rewrite H, IH by assumption. reflexivity. Qed.
  Lemma zip_unit_l_on {X} (f : X -> X -> X) e (P : X -> Prop) : (forall x, P x -> f e x = x) -> forall a, Forall P a -> zip_with f (repeat e (length a)) a = a.
  Proof. intros H a F. induction F as [|x a Px F IH]; cbn; [reflexivity|]. rewrite H, IH by exact Px. reflexivity. Qed.
  Lemma zip_unit_r_on {X} (f : X -> X -> X) e (P : X -> Prop) : (forall x, P x -> f x e = x) -> forall a, Forall P a -> zip_with f a (repeat e (length a)) = a.
  Proof. intros H a F. induction F as [|x a Px F IH]; cbn; [reflexivity|]. rewrite H, IH by exact Px. reflexivity. Qed.
  Lemma zip_whole a : forall b, Forall whole a -> Forall whole b -> Forall whole (zip_with add a b).
  Proof. intros b Fa. revert b. induction Fa as [|x a Px Fa IH]; intros b Fb; [constructor|]. destruct Fb; cbn; [constructor|]. constructor; [apply (wh_add _ _ _ HW); assumption|apply IH; assumption]. Qed.

  Definition no_uses : W * (list W * list (list nat)) := (zero, (repeat zero n, repeat [] n)).
  Lemma no_uses_ok : uses_ok no_uses.
  Proof. repeat split; cbn; [apply (wh_zero _ _ _ HW)|apply repeat_length| |apply repeat_length]. apply Forall_forall. intros x Hx. apply repeat_spec in Hx. subst x. apply (wh_zero _ _ _ HW). Qed.
  Lemma join_ok a b : uses_ok a -> uses_ok b -> uses_ok (join_uses A a b).
  Proof. intros (A1 & A2 & A3 & A4) (B1 & B2 & B3 & B4). repeat split; cbn; [apply (wh_add _ _ _ HW); assumption|rewrite zip_with_length; lia|apply zip_whole; assumption|rewrite zip_with_length; lia]. Qed.
  Lemma join_l a : uses_ok a -> join_uses A no_uses a = a.
  Proof.
    destruct a as [v [f i]]. intros (A1 & A2 & A3 & A4). unfold join_uses, no_uses. cbn [fst snd] in *. rewrite (wh_zero_l _ _ _ HW) by exact A1. rewrite <- A2 at 1. rewrite (zip_unit_l_on add zero whole (wh_zero_l _ _ _ HW) f A3).
    rewrite <- A4. rewrite (zip_with_unit_l (fun x y => x ++ y) []); reflexivity.
  Qed.
  Lemma join_r a : uses_ok a -> join_uses A a no_uses = a.
  Proof.
    destruct a as [v [f i]]. intros (A1 & A2 & A3 & A4). unfold join_uses, no_uses. cbn [fst snd] in *. rewrite (wh_zero_r _ _ _ HW) by exact A1. rewrite <- A2 at 1. rewrite (zip_unit_r_on add zero whole (wh_zero_r _ _ _ HW) f A3).
    rewrite <- A4. rewrite (zip_with_unit_r (fun x y => x ++ y) []); [reflexivity|]. intros. apply app_nil_r.
  Qed.
  Lemma join_assoc a b c : uses_ok a -> uses_ok b -> uses_ok c -> join_uses A a (join_uses A b c) = join_uses A (join_uses A a b) c.
  Proof.
    intros (A1 & A2 & A3 & A4) (B1 & B2 & B3 & B4) (C1 & C2 & C3 & C4). unfold join_uses. cbn [fst snd]. rewrite (wh_assoc _ _ _ HW) by assumption. rewrite (zip_assoc_on add whole (wh_assoc _ _ _ HW)) by assumption.
    rewrite (zip_with_assoc (fun x y : list nat => x ++ y)) by (intros; apply app_assoc). reflexivity.
  Qed.
  Lemma join_parts parts : Forall uses_ok parts -> let r := fold_right (join_uses A) no_uses parts in
    fst r = wsum A (map fst parts) /\ forall id, id < n -> nth id (fst (snd r)) zero = wsum A (map (fun p => nth id (fst (snd p)) zero) parts) /\ nth id (snd (snd r)) [] = concat (map (fun p => nth id (snd (snd p)) []) parts).
  Proof.
    intros F. cbn zeta. assert (OK : uses_ok (fold_right (join_uses A) no_uses parts)) by (apply fold_P; [apply no_uses_ok|apply join_ok|exact F]). revert OK. induction F as [|p parts Hp F IH]; intros OK.
    - cbn. split; [reflexivity|]. intros id Hid. rewrite !nth_repeat. auto.
    - assert (OK' : uses_ok (fold_right (join_uses A) no_uses parts)) by (apply fold_P; [apply no_uses_ok|apply join_ok|exact F]). destruct (IH OK') as [V1 V2]. cbn [fold_right map]. set (r := fold_right (join_uses A) no_uses parts) in *. unfold join_uses. cbn [fst snd].
      destruct Hp as (P1 & P2 & P3 & P4), OK' as (R1 & R2 & R3 & R4). split; [rewrite V1; reflexivity|]. intros id Hid. destruct (V2 id Hid) as [V3 V4]. rewrite !zip_with_nth by lia. rewrite V3, V4. split; reflexivity.
  Qed.

  Lemma freqs_app a b sa sb id : length a = length sa -> freqs (a ++ b) (sa ++ sb) id = freqs a sa id ++ freqs b sb id.
  Proof. clear Hn. unfold freqs. revert sa. induction a as [|w a IH]; intros [|seg sa] L; cbn in L; try lia; [reflexivity|]. cbn [zip_with app concat]. rewrite IH by lia. apply app_assoc. Qed.
  Lemma places_app a b sa sb id : length a = length sa -> places (a ++ b) (sa ++ sb) id = places a sa id ++ places b sb id.
  Proof. clear Hn. unfold places. revert sa. induction a as [|w a IH]; intros [|seg sa] L; cbn in L; try lia; [reflexivity|]. cbn [zip_with app concat]. rewrite IH by lia. apply app_assoc. Qed.

  Context (threads : nat) (plan : nat -> rtree) (wc : list (str * N)) (Hwc : Forall (fun e => text_ok (fst e)) wc).
  Definition numbered_words : list word := combine (seq 0 (length wc)) wc.

  Theorem uses_spec step : leaves (plan step) = length (chunks threads wc) -> exists segs vsum freq inv,
    segs_of numbered_words segs /\ uses A T threads plan step m n wc = Ok (vsum, (freq, inv)) /\ vsum = wsum A (map (fun w => ta_of T (snd (snd w))) numbered_words) /\ length freq = n /\ Forall whole freq /\ length inv = n /\
    forall id, id < n -> nth id freq zero = wsum A (freqs numbered_words segs id) /\ nth id inv [] = places numbered_words segs id.
  Proof.
    intros LV. unfold uses. cbn zeta. fold no_uses. fold numbered_words. set (sz := Nat.max (length wc / threads) 1). assert (SZ : 0 < sz) by (unfold sz; lia).
    assert (LW : length numbered_words = length wc) by (unfold numbered_words; rewrite combine_length, seq_length; lia).
    assert (EC : concat (chunks_of (length wc) sz numbered_words) = numbered_words) by (apply chunks_concat; [exact SZ|lia]).
    assert (TX : Forall (fun w : word => text_ok (fst (snd w))) numbered_words).
    { apply Forall_forall. intros [i e] H. apply in_combine_r in H. rewrite Forall_forall in Hwc. apply Hwc. exact H. }
    destruct (collect_total (fun ch => use_chunk A T m ch no_uses) (chunks_of (length wc) sz numbered_words) (fun ch p => uses_ok p /\ exists segs, segs_of ch segs /\ fst p = wsum A (map (fun w => ta_of T (snd (snd w))) ch) /\
      forall id, id < n -> nth id (fst (snd p)) zero = wsum A (freqs ch segs id) /\ nth id (snd (snd p)) [] = places ch segs id)) as (parts & E & F).
    { intros ch Hch. destruct (use_chunk_spec ch) with (v := zero) (freq := repeat zero n) (inv := repeat (@nil nat) n) as (segs & f' & i' & C & E & L1 & L2 & V).
      - apply Forall_forall. intros x Hx. rewrite Forall_forall in TX. apply TX. rewrite <- EC. apply in_concat. eauto.
      - apply repeat_length.
      - apply repeat_length.
      - assert (WM : Forall whole (map (fun w : word => ta_of T (snd (snd w))) ch)) by (apply Forall_map, Forall_forall; intros; apply (wh_of _ _ _ HW)).
        assert (VV : forall id, id < n -> nth id f' zero = wsum A (freqs ch segs id) /\ nth id i' [] = places ch segs id).
        { intros id Hid. destruct (V id Hid) as [V1 V2]. rewrite V1, V2, !nth_repeat. split; [apply whole_left0, freqs_whole|reflexivity]. }
        rewrite whole_left0 in E by exact WM. eexists. split; [exact E|]. split; [|exists segs; split; [exact C|]; split; [reflexivity|exact VV]].
        repeat split; cbn [fst snd]; try assumption; [apply whole_fold; exact WM|]. apply Forall_forall. intros x Hx. apply In_nth with (d := zero) in Hx. destruct Hx as (k & Hk & <-). rewrite (proj1 (VV k ltac:(lia))). apply whole_fold, freqs_whole. }
    rewrite E. cbn [bind].
    assert (FO : Forall uses_ok parts) by (clear - F; induction F as [|? ? ? ? [H _] F IH]; constructor; assumption).
    rewrite (reduce_all no_uses (join_uses A) uses_ok no_uses_ok join_ok join_l join_r join_assoc); [| |exact FO].
    2:{ rewrite LV. unfold chunks. fold sz. clear - F SZ LW. assert (H : forall fuel k, 0 < k -> forall (a : list (str * N)) (b : list word), length a = length b -> length (chunks_of fuel k a) = length (chunks_of fuel k b)).
        { intros fuel k Hk. induction fuel as [|fuel IH]; intros [|x a] [|y b] L; cbn in L; try lia; try reflexivity. cbn [chunks_of length]. f_equal. apply IH. rewrite !skipn_length. cbn [length]. lia. }
        rewrite (H _ _ SZ wc numbered_words) by lia. clear H. induction F; cbn; congruence. }
    assert (OKR : uses_ok (fold_right (join_uses A) no_uses parts)) by (apply fold_P; [apply no_uses_ok|apply join_ok|exact FO]).
    destruct (join_parts parts FO) as [J1 J2]. set (r := fold_right (join_uses A) no_uses parts) in *.
    assert (G : exists segs, segs_of numbered_words segs /\ wsum A (map fst parts) = wsum A (map (fun w => ta_of T (snd (snd w))) numbered_words) /\
      forall id, id < n -> wsum A (map (fun p => nth id (fst (snd p)) zero) parts) = wsum A (freqs numbered_words segs id) /\ concat (map (fun p => nth id (snd (snd p)) []) parts) = places numbered_words segs id).
    { rewrite <- EC. clear - F HW Hn. induction F as [|ch p chs parts [Hok (segs & C & Fv & V)] F (segs' & C' & S' & V')].
      - exists []. split; [constructor|]. split; [reflexivity|]. intros id Hid. split; reflexivity.
      - exists (segs ++ segs'). cbn [concat map]. assert (LS : length ch = length segs) by (clear - C; induction C; cbn; congruence). split; [apply Forall2_app; assumption|]. split.
        + rewrite map_app, whole_app; [|apply Forall_map, Forall_forall; intros; apply (wh_of _ _ _ HW)|apply Forall_map, Forall_forall; intros; apply (wh_of _ _ _ HW)]. cbn [wsum fold_right]. rewrite Fv. f_equal. exact S'.
        + intros id Hid. destruct (V id Hid) as [V1 V2], (V' id Hid) as [V3 V4]. rewrite freqs_app, places_app by exact LS. rewrite whole_app by apply freqs_whole. cbn [wsum fold_right]. rewrite V1, V2. split; [f_equal; exact V3|f_equal; exact V4]. }
    destruct G as (segs & C & S1 & V). destruct r as [v [f i]]. cbn [fst snd] in *. destruct OKR as (_ & R2 & R3 & R4). cbn [fst snd] in *. exists segs, v, f, i. split; [exact C|]. split; [reflexivity|]. split; [rewrite J1; exact S1|]. split; [exact R2|]. split; [exact R3|]. split; [exact R4|].
    intros id Hid. destruct (J2 id Hid) as [V1 V2], (V id Hid) as [V3 V4]. rewrite V1, V2. auto.
  Qed.
End uses.
