(** Lemmas behind C13-C15 stated on [aligned] strings. *)
From Verif Require Import Base ListFacts StrBytes NormModel NormSpec NormProofs NormProofs2 NormProofs3 NormProofs4 NormProofs5.

Lemma nth_last {A} (l : list A) d : l <> [] -> nth_error l (length l - 1) = Some (last l d).
Proof.
  destruct l as [|x l] using rev_ind; [congruence|]. intros _. rewrite app_length; cbn [length].
  replace (length l + 1 - 1) with (length l + 0) by lia. rewrite nth_error_app2 by lia.
  replace (length l + 0 - length l) with 0 by lia. cbn. rewrite last_last. reflexivity.
Qed.

Lemma convert_normalized_any ns a b :
  aligned ns -> a < b -> b <= n_len ns ->
  exists s e y x, convert_offsets ns (rn a b) = Some (s, e) /\
    nth_error (n_alignments ns) a = Some (s, y) /\ nth_error (n_alignments ns) (b - 1) = Some (x, e).
Proof.
  intros H Hab Hb. pose proof (aligned_len _ H) as L. unfold n_len in Hb. rewrite <- L in Hb.
  unfold convert_offsets, rn. cbn [full_range].
  replace (a =? b) with false by lia. replace (b <? a) with false by lia.
  replace (b =? 0) with false by lia. rewrite !Bool.andb_false_r.
  unfold get_range. replace ((a <=? b) && _) with true by lia.
  set (l := firstn (b - a) (skipn a (n_alignments ns))).
  assert (Hl : length l = b - a) by (unfold l; rewrite firstn_length, skipn_length; lia).
  assert (Hn : forall i, i < b - a -> nth_error l i = nth_error (n_alignments ns) (a + i)).
  { intros i Hi. unfold l. rewrite nth_error_firstn, nth_error_skipn. replace (i <? b - a) with true by lia. reflexivity. }
  destruct l as [|[s y] l'] eqn:El; [cbn in Hl; lia|].
  pose proof (Hn 0 ltac:(lia)) as H0. rewrite Nat.add_0_r in H0. cbn [nth_error] in H0.
  pose proof (nth_last ((s, y) :: l') (s, y) ltac:(discriminate)) as H1. rewrite Hl in H1.
  rewrite (Hn (b - a - 1)) in H1 by lia. replace (a + (b - a - 1)) with (b - 1) in H1 by lia.
  cbn [expand_alignments fst]. destruct (last ((s, y) :: l') (s, y)) as [x e] eqn:Elast.
  exists s, e, y, x. cbn [snd]. auto.
Qed.

Lemma cal_nth_zone (z m q : cals) i a :
  nth_error (cbytes (z ++ m ++ q)) i = Some a ->
  (i < blen (ctext z) /\ In a (map snd z)) \/
  (blen (ctext z) <= i < blen (ctext z) + blen (ctext m) /\ In a (map snd m)) \/
  (blen (ctext z) + blen (ctext m) <= i /\ In a (map snd q)).
Proof.
  intros H. rewrite !cbytes_app in H.
  assert (G : forall (l : cals) j, nth_error (cbytes l) j = Some a -> In a (map snd l)).
  { intros l j Hj. apply nth_error_In in Hj. unfold cbytes in Hj. apply in_flat_map in Hj.
    destruct Hj as (ca & H1 & H2). apply repeat_spec in H2; subst. apply in_map; exact H1. }
  rewrite <- !length_cbytes.
  destruct (Nat.lt_ge_cases i (length (cbytes z))) as [Hi|Hi].
  - rewrite nth_error_app1 in H by exact Hi. eauto.
  - rewrite nth_error_app2 in H by exact Hi. right.
    destruct (Nat.lt_ge_cases (i - length (cbytes z)) (length (cbytes m))) as [Hj|Hj].
    + rewrite nth_error_app1 in H by exact Hj. left; split; [lia|eauto].
    + rewrite nth_error_app2 in H by exact Hj. right; split; [lia|eauto].
Qed.

Lemma zones_meaning orig cal ts te z m q i s e :
  wf_cal orig cal -> cal = z ++ m ++ q -> zones ts te z m q ->
  nth_error (cbytes cal) i = Some (s, e) ->
  (blen (ctext z) <= i < blen (ctext z) + blen (ctext m) -> ts <= s /\ e <= te) /\
  (ts <= s -> s < e -> e <= te -> blen (ctext z) <= i < blen (ctext z) + blen (ctext m)).
Proof.
  intros W -> (Z1 & Z2 & Z3 & Z4) H. apply Forall_app in Z1; destruct Z1 as [Z0 Z1].
  pose proof (cal_nth_zone _ _ _ _ _ H) as C. split.
  - intros Hi. destruct C as [[C _]|[[_ C]|[C _]]]; [lia| |lia].
    destruct m as [|[c a] m]; [destruct C|]. pose proof (wf_sub _ _ _ _ W) as Wm.
    destruct (sorted_first_last _ _ _ _ Wm (s, e) C) as [[S1 _] _].
    cbn [snd fst] in *. unfold wide in Z3. apply in_map_iff in C. destruct C as (cb & E & C).
    rewrite Forall_forall in Z1. specialize (Z1 _ C). rewrite E in Z1; cbn in Z1. lia.
  - intros H1 H2 H3. destruct C as [[_ C]|[[C _]|[_ C]]]; [exfalso|exact C|exfalso].
    + apply in_map_iff in C; destruct C as (cb & E & C). rewrite Forall_forall in Z2. specialize (Z2 _ C). rewrite E in Z2.
      unfold wide in Z2; cbn in Z2. lia.
    + destruct q as [|[c a] q]; [destruct C|]. cbn [snd] in Z4.
      assert (Wq : wf_cal orig ((c, a) :: q)).
      { apply (wf_sub orig (z ++ m) ((c, a) :: q) []). rewrite app_nil_r, <- app_assoc. exact W. }
      destruct (sorted_first_last orig c a q Wq (s, e) C) as [[_ S2] _]. cbn [snd] in *. lia.
Qed.

Lemma boundary_ctext (p m q : cals) :
  is_boundary (ctext (p ++ m ++ q)) (blen (ctext p)) = true /\
  is_boundary (ctext (p ++ m ++ q)) (blen (ctext p) + blen (ctext m)) = true.
Proof.
  split; apply is_boundary_spec; rewrite !ctext_app.
  - exists (ctext p), (ctext m ++ ctext q). auto.
  - exists (ctext p ++ ctext m), (ctext q). rewrite blen_app, <- app_assoc. auto.
Qed.

Lemma aligned_show ns : aligned ns -> exists orig cal sh, ns = show orig cal sh /\ wf_cal orig cal.
Proof. intros H. apply aligned_cal in H. destruct H as (cal & H & W). apply shows_show in H. eauto. Qed.

Lemma convert_original_any ns ts te :
  aligned ns -> ts < te ->
  match convert_offsets ns (ro ts te) with
  | Some (a, b) =>
      a <= b /\ is_boundary (n_normalized ns) a = true /\ is_boundary (n_normalized ns) b = true /\
      (forall i s e, nth_error (n_alignments ns) i = Some (s, e) ->
         (a <= i < b -> ts <= s /\ e <= te) /\ (ts <= s -> s < e -> e <= te -> a <= i < b))
  | None => forall i s e, nth_error (n_alignments ns) i = Some (s, e) -> te < e
  end.
Proof.
  intros H Ht. apply aligned_show in H. destruct H as (orig & cal & sh & -> & W).
  destruct (zones_exist ts te cal) as (z & m & q & E & Z).
  rewrite (convert_original orig cal sh ts te z m q E Z Ht). cbn [n_normalized n_alignments show].
  destruct (z ++ m) as [|ca l] eqn:Ezm.
  - apply app_eq_nil in Ezm; destruct Ezm as [-> ->]. cbn [app] in E. subst q. intros i s e Hi.
    destruct Z as (_ & _ & _ & Z). destruct cal as [|[c a] cal]; [destruct i; discriminate|].
    apply nth_error_In in Hi. unfold cbytes in Hi; apply in_flat_map in Hi. destruct Hi as (cb & H1 & H2).
    apply repeat_spec in H2. assert (Hin : In (s, e) (map snd ((c, a) :: cal))) by (rewrite H2; apply in_map; exact H1).
    destruct (sorted_first_last _ _ _ _ W _ Hin) as [[_ S] _]. cbn [snd] in *. lia.
  - split; [lia|]. destruct (boundary_ctext z m q) as [B1 B2]. rewrite <- E in B1, B2.
    split; [exact B1|]. split; [exact B2|]. intros i s e Hi. eapply zones_meaning; eauto.
Qed.

Lemma id_cal_app s1 : forall b s2, id_cal b (s1 ++ s2) = id_cal b s1 ++ id_cal (b + blen s1) s2.
Proof.
  induction s1 as [|c s1 IH]; intros b s2; cbn [app id_cal blen]; [rewrite Nat.add_0_r; reflexivity|].
  rewrite IH, Nat.add_assoc; reflexivity.
Qed.

Lemma id_cal_in s : forall b ca, In ca (id_cal b s) -> b <= fst (snd ca) /\ fst (snd ca) < snd (snd ca) /\ snd (snd ca) <= b + blen s.
Proof.
  induction s as [|c s IH]; intros b ca H; [destruct H|]. pose proof (len_utf8_pos c). cbn [id_cal blen] in *.
  destruct H as [<- | H]; [cbn; lia|]. apply IH in H. lia.
Qed.

Lemma id_zones u m v : m <> [] ->
  zones (blen u) (blen u + blen m) (id_cal 0 u) (id_cal (blen u) m) (id_cal (blen u + blen m) v).
Proof.
  intros Hm. unfold zones. split; [|split; [|split]].
  - apply Forall_app; split; apply Forall_forall; intros ca Hca; apply id_cal_in in Hca; lia.
  - apply Forall_forall; intros ca Hca; apply id_cal_in in Hca. unfold wide. lia.
  - destruct m as [|c m]; [congruence|]. cbn [id_cal]. pose proof (len_utf8_pos c). unfold wide; cbn [fst snd]. lia.
  - destruct v as [|c v]; [exact I|]. cbn [id_cal]. pose proof (len_utf8_pos c). cbn [fst snd]. lia.
Qed.

Lemma convert_untouched u m v : m <> [] ->
  convert_offsets (nfrom (u ++ m ++ v)) (ro (blen u) (blen u + blen m)) = Some (blen u, blen u + blen m) /\
  convert_offsets (nfrom (u ++ m ++ v)) (rn (blen u) (blen u + blen m)) = Some (blen u, blen u + blen m).
Proof.
  intros Hm. rewrite nfrom_show. rewrite !id_cal_app. cbn [Nat.add].
  assert (Hpos : 0 < blen m) by (destruct m as [|c m]; [congruence|]; pose proof (len_utf8_pos c); cbn; lia).
  split.
  - erewrite convert_original; [|reflexivity|apply id_zones; exact Hm|lia].
    destruct (id_cal 0 u ++ id_cal (blen u) m) eqn:E.
    + apply app_eq_nil in E. destruct E as [_ E]. destruct m; [congruence|discriminate].
    + rewrite !ctext_id_cal. reflexivity.
  - destruct m as [|c m]; [congruence|].
    pose proof (convert_normalized (u ++ (c :: m) ++ v) 0 (id_cal 0 u) c (blen u, blen u + len_utf8 c) (id_cal (blen u + len_utf8 c) m)
                  (id_cal (blen u + blen (c :: m)) v)) as C.
    change ((c, (blen u, blen u + len_utf8 c)) :: id_cal (blen u + len_utf8 c) m) with (id_cal (blen u) (c :: m)) in C.
    rewrite !ctext_id_cal in C. rewrite C. f_equal. f_equal. cbn [blen].
    assert (G : forall m b d, snd d = b -> snd (last_al d (id_cal b m)) = b + blen m).
    { clear. induction m as [|c' m IH]; intros b d E; cbn [id_cal blen]; [rewrite last_al_nil; lia|].
      rewrite last_al_cons. rewrite (IH (b + len_utf8 c')); [lia|reflexivity]. }
    rewrite G by reflexivity. lia.
Qed.

(** ** Slices *)
Lemma slice_normalized_any ns a b :
  aligned ns -> a < b ->
  is_boundary (n_normalized ns) a = true -> is_boundary (n_normalized ns) b = true ->
  exists ns' s e,
    n_slice ns (rn a b) = Ok ns' /\
    str_get (n_normalized ns) a b = Some (n_normalized ns') /\
    convert_offsets ns (rn a b) = Some (s, e) /\
    str_get (n_original ns) s e = Some (n_original ns') /\
    offsets_original ns' = (n_shift ns + s, n_shift ns + e) /\
    n_alignments ns' = map (fun x => (fst x - s, snd x - s)) (firstn (b - a) (skipn a (n_alignments ns))) /\
    aligned ns'.
Proof.
  intros H Hab B1 B2. apply aligned_show in H. destruct H as (orig & cal & sh & -> & W).
  cbn [n_normalized n_original n_alignments n_shift show] in *.
  destruct (str_get (ctext cal) a b) as [t|] eqn:Eg.
  2:{ exfalso. apply str_get_none_iff in Eg; auto. lia. }
  pose proof Eg as Eg'.
  apply str_get_inv in Eg; destruct Eg as (x & y & E & -> & ->).
  apply ctext_split3 in E; destruct E as (p & m & q & -> & <- & <- & <-).
  destruct m as [|[c al] m]; [cbn in Hab; lia|].
  destruct (slice_normalized orig sh p c al m q W) as (u & piece & v & Eo & Eu & Ep & W' & Hs).
  exists (show piece (shift_cal (blen u) ((c, al) :: m)) (sh + blen u)), (fst al), (snd (last_al al m)).
  split; [exact Hs|]. cbn [n_normalized n_original n_alignments n_shift show].
  split; [rewrite ctext_shift; reflexivity|].
  split; [apply convert_normalized|].
  split; [rewrite Eo, <- Eu, <- Ep; apply str_get_app|].
  split; [unfold offsets_original, n_len_original; cbn [n_shift n_original show]; rewrite <- Eu, <- Ep; f_equal; lia|].
  split; [|apply show_aligned; exact W'].
  rewrite cbytes_shift, <- Eu. unfold shift_al.
  replace (firstn _ (skipn _ _)) with (cbytes ((c, al) :: m)); [reflexivity|].
  rewrite !cbytes_app. rewrite <- (length_cbytes p), <- (length_cbytes ((c, al) :: m)).
  rewrite skipn_app, skipn_all, Nat.sub_diag. cbn [app skipn].
  replace (_ + _ - _) with (length (cbytes ((c, al) :: m))) by lia.
  rewrite firstn_app, firstn_all, Nat.sub_diag. cbn [firstn]. rewrite app_nil_r. reflexivity.
Qed.

Lemma slice_original_any ns a b :
  aligned ns -> a < b ->
  is_boundary (n_original ns) a = true -> is_boundary (n_original ns) b = true ->
  match convert_offsets ns (ro a b) with
  | None => n_slice ns (ro a b) = Err tt
  | Some (x, y) =>
      exists ns',
        n_slice ns (ro a b) = Ok ns' /\
        str_get (n_original ns) a b = Some (n_original ns') /\
        str_get (n_normalized ns) x y = Some (n_normalized ns') /\
        offsets_original ns' = (n_shift ns + a, n_shift ns + b) /\
        n_alignments ns' = map (fun z => (fst z - a, snd z - a)) (firstn (y - x) (skipn x (n_alignments ns))) /\
        aligned ns'
  end.
Proof.
  intros H Hab B1 B2. apply aligned_show in H. destruct H as (orig & cal & sh & -> & W).
  cbn [n_normalized n_original n_alignments n_shift show] in *.
  destruct (str_get orig a b) as [piece|] eqn:Eg.
  2:{ exfalso. apply str_get_none_iff in Eg; auto. lia. }
  pose proof Eg as Eg'.
  apply str_get_inv in Eg'; destruct Eg' as (u & v & Eo & Eu & Ev).
  destruct (zones_exist a b cal) as (z & m & q & -> & Z).
  rewrite (convert_original orig _ sh a b z m q eq_refl Z Hab).
  destruct (slice_original orig sh a b z m q u piece v W Z Hab Eo Eu Ev) as [Hs W'].
  destruct (z ++ m) eqn:Ezm; [exact Hs|].
  exists (show piece (shift_cal a m) (sh + a)). split; [exact Hs|].
  cbn [n_normalized n_original n_alignments n_shift show]. split; [reflexivity|].
  split; [rewrite ctext_shift, !ctext_app; apply str_get_app|].
  split; [unfold offsets_original, n_len_original; cbn [n_shift n_original show]; f_equal; lia|].
  split; [|apply show_aligned; exact W'].
  rewrite cbytes_shift. unfold shift_al.
  replace (firstn _ (skipn _ _)) with (cbytes m); [reflexivity|].
  rewrite !cbytes_app. rewrite <- (length_cbytes z), <- (length_cbytes m).
  rewrite skipn_app, skipn_all, Nat.sub_diag. cbn [app skipn].
  replace (_ + _ - _) with (length (cbytes m)) by lia.
  rewrite firstn_app, firstn_all, Nat.sub_diag. cbn [firstn]. rewrite app_nil_r. reflexivity.
Qed.

Lemma slice_none_normalized ns a b :
  aligned ns ->
  (n_slice ns (rn a b) = Err tt <->
   ~ (a <= b /\ is_boundary (n_normalized ns) a = true /\ is_boundary (n_normalized ns) b = true)).
Proof.
  intros H. split.
  - intros E (Hab & B1 & B2). destruct (Nat.eq_dec a b) as [<- |].
    + unfold n_slice, validate_range in E. cbn [rn full_range] in E. rewrite B1 in E. cbn [andb] in E.
      unfold convert_offsets, rn in E. cbn [full_range] in E. rewrite Nat.eqb_refl in E. cbn [fst snd] in E.
      unfold get_range in E. apply is_boundary_le in B1. rewrite (aligned_len _ H) in E.
      replace ((a <=? a) && (a <=? _)) with true in E by lia. rewrite Nat.sub_diag in E. cbn in E. discriminate.
    + destruct (slice_normalized_any ns a b H ltac:(lia) B1 B2) as (ns' & s & e & E' & _). congruence.
  - intros Hn. unfold n_slice, validate_range. cbn [rn full_range].
    destruct (is_boundary (n_normalized ns) a) eqn:B1; [|reflexivity].
    destruct (is_boundary (n_normalized ns) b) eqn:B2; [|reflexivity]. cbn [andb].
    destruct (Nat.le_gt_cases a b) as [Hab|Hab]; [exfalso; apply Hn; auto|].
    unfold convert_offsets at 1, rn at 1. cbn [full_range].
    replace (a =? b) with false by lia. replace (b <? a) with true by lia. reflexivity.
Qed.

Lemma slice_empty_any ns a :
  aligned ns -> is_boundary (n_normalized ns) a = true ->
  exists ns', n_slice ns (rn a a) = Ok ns' /\ n_normalized ns' = [] /\ n_original ns' = [] /\ aligned ns'.
Proof.
  intros H B. destruct (n_slice ns (rn a a)) as [ns'| [] |] eqn:E.
  - exists ns'. split; [reflexivity|]. apply aligned_show in H. destruct H as (orig & cal & sh & -> & W).
    apply slice_empty in E. subst ns'. split; [reflexivity|]. split; [reflexivity|]. apply show_aligned; split; constructor.
  - apply slice_none_normalized in E; [|exact H]. exfalso; apply E; auto.
  - apply aligned_show in H. destruct H as (orig & cal & sh & -> & W). pose proof (slice_wf _ _ sh (rn a a) W) as S.
    rewrite E in S. destruct S.
Qed.

(** ** Splits, as text *)
Section naturality.
  Context {A B : Type} (f : list A -> list B).
  Hypothesis f_app : forall x y, f (x ++ y) = f x ++ f y.
  Let mapseg (s : list A * bool) := (f (fst s), snd s).

  Lemma natural_previous n : forall segs : list (list A * bool), length segs <= n ->
    map f (spec_previous segs) = spec_previous (map mapseg segs).
  Proof.
    induction n as [|n IH]; intros segs Hn; (destruct segs as [|[t g] segs]; [reflexivity|]); cbn [length] in Hn; [lia|].
    destruct g; [cbn; f_equal; apply IH; lia|]. destruct segs as [|[u g] segs]; [reflexivity|].
    destruct g.
    - cbn. rewrite f_app. f_equal. apply IH. cbn in Hn; lia.
    - change (map f (spec_previous ((t, false) :: (u, false) :: segs))) with (f t :: map f (spec_previous ((u, false) :: segs))).
      rewrite IH by lia. reflexivity.
  Qed.
  Lemma natural_next n : forall segs : list (list A * bool), length segs <= n ->
    map f (spec_next segs) = spec_next (map mapseg segs).
  Proof.
    induction n as [|n IH]; intros segs Hn; (destruct segs as [|[t g] segs]; [reflexivity|]); cbn [length] in Hn; [lia|].
    destruct g; [|cbn; f_equal; apply IH; lia]. destruct segs as [|[u g] segs]; [reflexivity|].
    destruct g.
    - change (map f (spec_next ((t, true) :: (u, true) :: segs))) with (f t :: map f (spec_next ((u, true) :: segs))).
      rewrite IH by lia. reflexivity.
    - cbn. rewrite f_app. f_equal. apply IH. cbn in Hn; lia.
  Qed.
  Lemma natural_contiguous (segs : list (list A * bool)) : map f (spec_contiguous segs) = spec_contiguous (map mapseg segs).
  Proof.
    induction segs as [|[t g] segs IH]; [reflexivity|].
    cbn [map spec_contiguous mapseg fst snd]. destruct segs as [|[u h] segs]; [reflexivity|]. cbn [map] in *.
    destruct (Bool.eqb g h) eqn:E.
    - unfold mapseg at 1. cbn [fst snd]. rewrite E. rewrite <- IH.
      destruct (spec_contiguous ((u, h) :: segs)); [reflexivity|]. cbn [map]. rewrite f_app. reflexivity.
    - unfold mapseg at 1. cbn [fst snd]. rewrite E. cbn [map]. rewrite IH. reflexivity.
  Qed.
  Lemma natural_split b (segs : list (list A * bool)) : map f (spec_split b segs) = spec_split b (map mapseg segs).
  Proof.
    destruct b; cbn [spec_split].
    - unfold spec_removed. induction segs as [|[t g] segs IH]; [reflexivity|]. cbn [map filter mapseg fst snd].
      destruct g; cbn [negb map fst]; rewrite IH; reflexivity.
    - unfold spec_isolated. rewrite !map_map. reflexivity.
    - eapply natural_previous; eauto.
    - eapply natural_next; eauto.
    - apply natural_contiguous.
  Qed.
End naturality.

Lemma part_of_text ns seg ns' : part_of ns seg ns' -> n_normalized ns' = ctext seg.
Proof.
  destruct seg as [|[c a] r]; cbn [part_of]; [intros [H _]; exact H|].
  intros (u & v & _ & _ & _ & _ & H & _). rewrite H. unfold ctext. rewrite map_map. reflexivity.
Qed.
