(** Proofs about [NormalizedString] at the level of characters carrying ranges. *)
From Coq Require Import ZArith Sorting.Sorted.
From Verif Require Import Base ListFacts StrBytes NormModel NormSpec.

Notation cals := (list (N * (nat * nat))) (only parsing).

(** ** Basic facts *)
Lemma ctext_app a b : ctext (a ++ b) = ctext a ++ ctext b.
Proof. apply map_app. Qed.
Lemma cbytes_app a b : cbytes (a ++ b) = cbytes a ++ cbytes b.
Proof. unfold cbytes; apply flat_map_app. Qed.
Lemma cbytes_cons ca b : cbytes (ca :: b) = repeat (snd ca) (len_utf8 (fst ca)) ++ cbytes b.
Proof. reflexivity. Qed.
Lemma ctext_cons ca b : ctext (ca :: b) = fst ca :: ctext b.
Proof. reflexivity. Qed.
Lemma ctext_firstn k a : ctext (firstn k a) = firstn k (ctext a).
Proof. symmetry; apply firstn_map. Qed.
Lemma ctext_skipn k a : ctext (skipn k a) = skipn k (ctext a).
Proof. symmetry; apply skipn_map. Qed.
Lemma length_ctext a : length (ctext a) = length a.
Proof. apply map_length. Qed.

Lemma length_cbytes cal : length (cbytes cal) = blen (ctext cal).
Proof.
  induction cal as [|[c a] cal IH]; [reflexivity|].
  rewrite cbytes_cons, ctext_cons; cbn [fst snd blen]; rewrite app_length, repeat_length; lia.
Qed.

Lemma ctext_split cal x y :
  ctext cal = x ++ y -> exists p q, cal = p ++ q /\ ctext p = x /\ ctext q = y.
Proof.
  unfold ctext; intros H; apply map_eq_app in H; destruct H as (p & q & -> & <- & <-); eauto.
Qed.

Lemma ctext_split3 cal x y z :
  ctext cal = x ++ y ++ z -> exists p m q, cal = p ++ m ++ q /\ ctext p = x /\ ctext m = y /\ ctext q = z.
Proof.
  intros H; apply ctext_split in H; destruct H as (p & q & -> & <- & H).
  apply ctext_split in H; destruct H as (m & q' & -> & <- & <-). exists p, m, q'; auto.
Qed.

Lemma nth_cbytes_head p ca q k :
  k < len_utf8 (fst ca) -> nth_error (cbytes (p ++ ca :: q)) (blen (ctext p) + k) = Some (snd ca).
Proof.
  intros Hk. rewrite cbytes_app, cbytes_cons, nth_error_app2; rewrite length_cbytes; [|lia].
  replace (blen (ctext p) + k - blen (ctext p)) with k by lia.
  rewrite nth_error_app1 by (rewrite repeat_length; lia). apply nth_error_repeat_lt; lia.
Qed.

Lemma nth_cbytes_last p ca q :
  nth_error (cbytes (p ++ ca :: q)) (blen (ctext p) + len_utf8 (fst ca) - 1) = Some (snd ca).
Proof.
  pose proof (len_utf8_pos (fst ca)).
  replace (blen (ctext p) + len_utf8 (fst ca) - 1) with (blen (ctext p) + (len_utf8 (fst ca) - 1)) by lia.
  apply nth_cbytes_head; lia.
Qed.

Lemma nth_cbytes_inv cal : forall i a, nth_error (cbytes cal) i = Some a ->
  exists p c q k, cal = p ++ (c, a) :: q /\ i = blen (ctext p) + k /\ k < len_utf8 c.
Proof.
  induction cal as [|[c x] cal IH]; intros i a H; [destruct i; discriminate|].
  rewrite cbytes_cons in H; cbn [fst snd] in H.
  destruct (Nat.lt_ge_cases i (len_utf8 c)) as [Hl|Hl].
  - rewrite nth_error_app1 in H by (rewrite repeat_length; lia).
    rewrite nth_error_repeat_lt in H by lia. injection H as <-.
    exists [], c, cal, i; cbn; auto.
  - rewrite nth_error_app2 in H by (rewrite repeat_length; lia). rewrite repeat_length in H.
    apply IH in H; destruct H as (p & c' & q & k & -> & E & Hk).
    exists ((c, x) :: p), c', q, k; cbn [app ctext map fst blen]; repeat split; auto.
    unfold ctext in E; lia.
Qed.

(** ** Ordering *)
Definition ale (a b : nat * nat) : Prop := fst a <= fst b /\ snd a <= snd b.
Lemma ale_refl a : ale a a.
Proof. unfold ale; lia. Qed.
Lemma ale_trans a b c : ale a b -> ale b c -> ale a c.
Proof. unfold ale; lia. Qed.
#[global] Hint Resolve ale_refl : core.

Definition sorted_al := StronglySorted ale.

Lemma sorted_app_inv l1 l2 : sorted_al (l1 ++ l2) ->
  sorted_al l1 /\ sorted_al l2 /\ (forall a b, In a l1 -> In b l2 -> ale a b).
Proof.
  induction l1 as [|x l1 IH]; cbn [app]; intros H.
  - split; [constructor|]. split; [assumption|intros ? ? []].
  - inversion H as [|? ? H1 H2]; subst. apply IH in H1; destruct H1 as (H1 & H3 & H4).
    rewrite Forall_app in H2; destruct H2 as [H2 H5].
    split; [constructor; auto|]. split; [assumption|].
    intros a b [-> | Ha] Hb; [|auto]. rewrite Forall_forall in H5; auto.
Qed.

Lemma sorted_app l1 l2 : sorted_al l1 -> sorted_al l2 ->
  (forall a b, In a l1 -> In b l2 -> ale a b) -> sorted_al (l1 ++ l2).
Proof.
  induction l1 as [|x l1 IH]; cbn [app]; intros H1 H2 H3; [assumption|].
  inversion H1 as [|? ? H4 H5]; subst. constructor.
  - apply IH; auto. intros; apply H3; cbn; auto.
  - rewrite Forall_app; split; [assumption|]. apply Forall_forall; intros b Hb; apply H3; cbn; auto.
Qed.

Lemma sorted_cons_inv a l : sorted_al (a :: l) -> sorted_al l /\ (forall b, In b l -> ale a b).
Proof. intros H; inversion H as [|? ? H1 H2]; subst; split; auto. rewrite Forall_forall in H2; auto. Qed.

Lemma sorted_cons a l : sorted_al l -> (forall b, In b l -> ale a b) -> sorted_al (a :: l).
Proof. intros; constructor; auto; apply Forall_forall; auto. Qed.

Lemma sorted_last l d a : sorted_al l -> In a l -> ale a (last l d).
Proof.
  induction l as [|x [|y l] IH]; intros H Hin; [destruct Hin| |].
  - destruct Hin as [-> | []]; cbn; auto.
  - apply sorted_cons_inv in H; destruct H as [H1 H2].
    destruct Hin as [-> | Hin].
    + apply H2. destruct (last_In (y :: l) d) as [[E _]|E]; [discriminate|exact E].
    + apply IH; auto.
Qed.

(** ** Well formed characters with ranges *)
Definition okal (orig : str) (a : nat * nat) : Prop :=
  fst a <= snd a /\ is_boundary orig (fst a) = true /\ is_boundary orig (snd a) = true.

Definition wf_cal (orig : str) (cal : cals) : Prop :=
  Forall (okal orig) (map snd cal) /\ sorted_al (map snd cal).

Definition show (orig : str) (cal : cals) (k : nat) : nstring := mkN orig (ctext cal) (cbytes cal) k.

Lemma shows_show ns cal : shows ns cal <-> ns = show (n_original ns) cal (n_shift ns).
Proof.
  unfold shows, show; destruct ns as [o n al k]; cbn; split.
  - intros [-> ->]; reflexivity.
  - intros H; injection H as -> ->; auto.
Qed.

Lemma okal_00 orig : okal orig (0, 0).
Proof. unfold okal; cbn; rewrite is_boundary_0; auto. Qed.

Lemma aligned_cal ns : aligned ns -> exists cal, shows ns cal /\ wf_cal (n_original ns) cal.
Proof.
  intros [Hl Hr Hs Hc]. destruct ns as [o n al k]; cbn in *.
  assert (Hx : exists cal, n = ctext cal /\ al = cbytes cal).
  { clear Hr Hs. revert al Hl Hc. induction n as [|c n IH]; intros al Hl Hc; cbn [blen] in Hl.
    - destruct al; [|discriminate]. exists []; auto.
    - pose proof (len_utf8_pos c).
      destruct al as [|a al']; [cbn in Hl; lia|]. set (al := a :: al') in *.
      assert (Hal : al = repeat a (len_utf8 c) ++ skipn (len_utf8 c) al).
      { rewrite <- (firstn_skipn (len_utf8 c) al) at 1. f_equal.
        apply nth_error_ext; intros i.
        destruct (Nat.lt_ge_cases i (len_utf8 c)) as [Hi|Hi].
        - rewrite nth_error_repeat_lt by lia. 
          specialize (Hc [] c n i eq_refl Hi). cbn [blen Nat.add] in Hc.
          rewrite nth_error_firstn. replace (i <? len_utf8 c) with true by lia.
          rewrite Hc; reflexivity.
        - rewrite (proj2 (nth_error_None (repeat a (len_utf8 c)) i)) by (rewrite repeat_length; lia).
          apply nth_error_None. rewrite firstn_length; lia. }
      destruct (IH (skipn (len_utf8 c) al)) as (cal & E1 & E2).
      + rewrite skipn_length; lia.
      + intros p c' q k' E Hk.
        specialize (Hc (c :: p) c' q k'). cbn [app blen] in Hc. rewrite E in Hc.
        specialize (Hc eq_refl Hk). rewrite !nth_error_skipn.
        rewrite !Nat.add_assoc. exact Hc.
      + exists ((c, a) :: cal). split; [cbn; f_equal; exact E1|].
        rewrite cbytes_cons; cbn [fst snd]. rewrite <- E2; exact Hal. }
  destruct Hx as (cal & -> & ->). exists cal. split; [split; reflexivity|].
  assert (Hn : forall i a, nth_error (map snd cal) i = Some a ->
                exists p c q, cal = p ++ (c, a) :: q /\ length p = i).
  { intros i a H. rewrite nth_error_map in H.
    destruct (nth_error cal i) as [[c x]|] eqn:E; [|discriminate]. injection H as <-.
    apply nth_error_split in E; destruct E as (p & q & -> & <-). eauto. }
  split.
  - apply Forall_forall; intros [a b] Hin. apply In_nth_error in Hin; destruct Hin as [i Hi].
    apply Hn in Hi; destruct Hi as (p & c & q & -> & _). pose proof (len_utf8_pos c).
    apply (Hr (blen (ctext p) + 0)). rewrite nth_cbytes_head; [reflexivity|cbn; lia].
  - clear Hl Hr Hc. induction cal as [|[c a] cal IH]; [constructor|].
    pose proof (len_utf8_pos c) as Hp.
    cbn [map snd]. apply sorted_cons.
    + apply IH.
      * intros i j x y x' y' Hij H1 H2.
        apply (Hs (len_utf8 c + i) (len_utf8 c + j) x y x' y'); [lia| |];
          rewrite cbytes_cons; cbn [fst snd]; rewrite nth_error_app2, repeat_length by (rewrite repeat_length; lia);
          [replace (len_utf8 c + i - len_utf8 c) with i by lia|replace (len_utf8 c + j - len_utf8 c) with j by lia]; assumption.
      * intros i x H. rewrite nth_error_map in H.
        destruct (nth_error cal i) as [[c' x']|] eqn:E; [|discriminate]. injection H as <-.
        apply nth_error_split in E; destruct E as (p & q & -> & <-). eauto.
    + intros b Hb. apply in_map_iff in Hb; destruct Hb as ([c' b'] & Hb1 & Hb2); cbn in Hb1; subst b'.
      apply in_split in Hb2; destruct Hb2 as (p & q & ->). pose proof (len_utf8_pos c').
      destruct a as [x y]; destruct b as [x' y'].
      refine (Hs 0 (len_utf8 c + blen (ctext p) + 0) x y x' y' _ _ _); [lia| |].
      * rewrite cbytes_cons; cbn [fst snd]. destruct (len_utf8 c); [lia|reflexivity].
      * pose proof (nth_cbytes_head ((c, (x, y)) :: p) (c', (x', y')) q 0) as E.
        cbn [ctext map fst snd blen app] in E. unfold ctext in *. rewrite <- E; [reflexivity|lia].
Qed.

Lemma wf_nth orig cal i a : wf_cal orig cal -> nth_error (cbytes cal) i = Some a -> okal orig a.
Proof.
  intros [H _] E. apply nth_cbytes_inv in E; destruct E as (p & c & q & k & -> & _ & _).
  rewrite Forall_forall in H; apply H. rewrite map_app; apply in_or_app; right; left; reflexivity.
Qed.

Lemma wf_nth_sorted orig cal i j a b :
  wf_cal orig cal -> i <= j -> nth_error (cbytes cal) i = Some a -> nth_error (cbytes cal) j = Some b ->
  ale a b.
Proof.
  intros [_ H] Hij Ha Hb. apply nth_cbytes_inv in Ha; destruct Ha as (p & c & q & k & -> & -> & Hk).
  apply nth_cbytes_inv in Hb; destruct Hb as (p' & c' & q' & k' & E & -> & Hk').
  destruct (Nat.le_gt_cases (length p) (length p')) as [Hlen|Hlen].
  - destruct (app_prefix_cmp _ _ _ _ E Hlen) as (r & -> & E').
    destruct r as [|x r]; cbn [app] in E'.
    + injection E' as -> -> ->; auto.
    + injection E' as <- ->. rewrite map_app in H; apply sorted_app_inv in H; destruct H as (_ & H & _).
      cbn [map snd] in H; apply sorted_cons_inv in H; destruct H as [_ H]. apply H.
      rewrite map_app; apply in_or_app; right; left; reflexivity.
  - exfalso. symmetry in E. destruct (app_prefix_cmp _ _ _ _ E ltac:(lia)) as (r & -> & E').
    rewrite app_length in Hlen. destruct r as [|x r]; cbn [length app] in *; [lia|].
    injection E' as <- _. rewrite ctext_app, blen_app in Hij.
    cbn [ctext map fst blen] in Hij. lia.
Qed.

Lemma show_aligned orig cal k : wf_cal orig cal -> aligned (show orig cal k).
Proof.
  intros W; split; cbn [n_alignments n_normalized n_original show].
  - apply length_cbytes.
  - intros i a b H; pose proof (wf_nth _ _ _ _ W H) as [H1 H2]; auto.
  - intros i j a b a' b' Hij H1 H2. exact (wf_nth_sorted _ _ _ _ _ _ W Hij H1 H2).
  - intros p c q j E Hj. apply ctext_split in E; destruct E as (p' & q' & -> & <- & E).
    destruct q' as [|[c' a] q']; [discriminate|]. cbn in E; injection E as -> _.
    rewrite nth_cbytes_head by (cbn; lia). pose proof (len_utf8_pos c).
    rewrite <- (Nat.add_0_r (blen (ctext p'))). rewrite nth_cbytes_head; [reflexivity|cbn; lia].
Qed.

Lemma shows_aligned ns cal : shows ns cal -> wf_cal (n_original ns) cal -> aligned ns.
Proof. intros H W; apply shows_show in H; rewrite H; apply show_aligned; exact W. Qed.

(** ** From<String> *)
Fixpoint id_cal (b : nat) (s : str) : cals :=
  match s with
  | [] => []
  | c :: s' => (c, (b, b + len_utf8 c)) :: id_cal (b + len_utf8 c) s'
  end.

Lemma ctext_id_cal s : forall b, ctext (id_cal b s) = s.
Proof. induction s as [|c s IH]; intros b; cbn; [reflexivity|]; f_equal; apply IH. Qed.
Lemma cbytes_id_cal s : forall b, cbytes (id_cal b s) = identity_alignments b s.
Proof. induction s as [|c s IH]; intros b; cbn; [reflexivity|]; f_equal; apply IH. Qed.

Lemma nfrom_show s : nfrom s = show s (id_cal 0 s) 0.
Proof. unfold nfrom, show; rewrite ctext_id_cal, cbytes_id_cal; reflexivity. Qed.

Lemma id_cal_ge s : forall b a, In a (map snd (id_cal b s)) -> b <= fst a /\ b <= snd a.
Proof.
  induction s as [|c s IH]; intros b a; [intros []|].
  cbn [id_cal map snd]; intros [<- | H]; cbn [fst snd]; [lia|]. apply IH in H; lia.
Qed.

Lemma wf_id_cal_gen s : forall p, wf_cal (p ++ s) (id_cal (blen p) s).
Proof.
  induction s as [|c s IH]; intros p; [split; constructor|].
  specialize (IH (p ++ [c])). rewrite <- app_assoc in IH; cbn [app] in IH.
  rewrite blen_app in IH; cbn [blen] in IH. rewrite Nat.add_0_r in IH.
  destruct IH as [IH1 IH2]. split; cbn [id_cal map snd].
  - constructor; [|exact IH1]. unfold okal; cbn [fst snd]; split; [lia|].
    split; apply is_boundary_spec; [exists p, (c :: s); auto|].
    exists (p ++ [c]), s; rewrite <- app_assoc, blen_app; cbn [app blen]; split; [reflexivity|lia].
  - apply sorted_cons; [exact IH2|]. intros b Hb; apply id_cal_ge in Hb. unfold ale; cbn [fst snd]; lia.
Qed.

Lemma wf_id_cal s : wf_cal s (id_cal 0 s).
Proof. exact (wf_id_cal_gen s []). Qed.

Lemma nfrom_aligned s : aligned (nfrom s).
Proof. rewrite nfrom_show; apply show_aligned, wf_id_cal. Qed.

(** ** transform *)
(** The character-level meaning of [transform_loop]. *)
Fixpoint tloop (prev : nat * nat) (dest : list (char * Z)) (rest q : cals) : res unit cals :=
  match dest with
  | [] => Ok []
  | (c, ch) :: d =>
      if (0 <? ch)%Z then let! more := tloop prev d rest q in Ok ((c, prev) :: more)
      else match rest ++ q with
           | [] => Panic
           | (_, a) :: _ =>
               let k := S (Z.to_nat (- ch)) in
               let! more := tloop (last_al prev (firstn k rest)) d (skipn k rest) q in
               Ok ((c, a) :: more)
           end
  end.

Lemma last_al_app d a b : last_al d (a ++ b) = last_al (last_al d a) b.
Proof.
  unfold last_al; rewrite map_app. revert d; induction (map snd a) as [|x l IH]; intros d; [reflexivity|].
  cbn [app]. destruct l as [|y l].
  - cbn [app last]. destruct (map snd b) as [|z m]; [reflexivity|].
    cbn [last]. clear; revert z x d; induction m as [|w m IH]; intros; [reflexivity|]; apply IH.
  - specialize (IH d). cbn [app] in *. exact IH.
Qed.

Lemma last_al_cons d ca b : last_al d (ca :: b) = last_al (snd ca) b.
Proof. exact (last_al_app d [ca] b). Qed.
Lemma last_al_nil d : last_al d [] = d.
Proof. reflexivity. Qed.

Lemma nth_cbytes_prev p r :
  p <> [] -> nth_error (cbytes (p ++ r)) (blen (ctext p) - 1) = Some (last_al (0, 0) p).
Proof.
  intros Hp. destruct (exists_last Hp) as (p' & ca & ->).
  rewrite <- app_assoc; cbn [app]. rewrite ctext_app, blen_app; cbn [ctext map blen].
  rewrite last_al_app, last_al_cons, last_al_nil, Nat.add_0_r. apply nth_cbytes_last.
Qed.

Lemma blen_ctext_lt1 p : (blen (ctext p) <? 1) = is_nil p.
Proof.
  destruct p as [|[c a] p]; [reflexivity|]. cbn [ctext map fst blen is_nil].
  pose proof (len_utf8_pos c); lia.
Qed.

Lemma transform_loop_cal dest : forall p rest q,
  transform_loop (cbytes (p ++ rest ++ q)) dest (blen (ctext p)) (ctext rest)
  = match tloop (last_al (0, 0) p) dest rest q with
    | Ok cal => Ok (cbytes cal)
    | Err e => Err e
    | Panic => Panic
    end.
Proof.
  induction dest as [|[c ch] dest IH]; intros p rest q; [reflexivity|].
  cbn [transform_loop tloop].
  destruct (0 <? ch)%Z eqn:Ech.
  - replace (ch <? 0)%Z with false by lia. cbn [firstn skipn blen].
    rewrite blen_ctext_lt1.
    assert (Ha : (if is_nil p then Ok (0, 0)
                 else of_option (nth_error (cbytes (p ++ rest ++ q)) (blen (ctext p) - 1)))
                = @Ok unit _ (last_al (0, 0) p)).
    { destruct p as [|x p]; [reflexivity|]. cbn [is_nil]. rewrite nth_cbytes_prev by discriminate. reflexivity. }
    rewrite Ha; cbn [bind]. rewrite !Nat.add_0_r, IH.
    destruct (tloop _ dest rest q); cbn [bind]; [|reflexivity|reflexivity].
    rewrite cbytes_cons; reflexivity.
  - set (k := if (ch <? 0)%Z then Z.to_nat (- ch) else 0).
    assert (Hk : k = Z.to_nat (- ch)) by (unfold k; destruct (ch <? 0)%Z eqn:E; lia).
    rewrite <- Hk. clearbody k.
    destruct (rest ++ q) as [|[c0 a0] tl] eqn:Erq.
    + apply app_eq_nil in Erq; destruct Erq as [-> ->]. rewrite app_nil_r.
      rewrite (proj2 (nth_error_None (cbytes p) _)); [reflexivity|]. rewrite length_cbytes; lia.
    + assert (Hn : nth_error (cbytes (p ++ (c0, a0) :: tl)) (blen (ctext p)) = Some a0).
      { pose proof (nth_cbytes_head p (c0, a0) tl 0) as E. rewrite Nat.add_0_r in E. apply E.
        pose proof (len_utf8_pos c0); cbn; lia. }
      rewrite Hn; cbn [of_option bind].
      destruct rest as [|[cr ar] rest].
      * cbn [ctext map]. rewrite firstn_nil, !skipn_nil, firstn_nil; cbn [blen]. rewrite !Nat.add_0_r.
        rewrite last_al_nil.
        specialize (IH p [] q). cbn [app ctext map] in IH, Erq; rewrite <- Erq, IH.
        destruct (tloop _ dest [] q); cbn [bind]; reflexivity.
      * cbn [app] in Erq; injection Erq as -> -> <-.
        cbn [ctext map fst firstn skipn]. rewrite last_al_cons; cbn [snd].
        specialize (IH (p ++ (c0, a0) :: firstn k rest) (skipn k rest) q).
        rewrite last_al_app, last_al_cons in IH; cbn [snd] in IH.
        rewrite <- app_assoc in IH; cbn [app] in IH.
        rewrite (app_assoc (firstn k rest)), firstn_skipn in IH.
        rewrite ctext_app, blen_app, ctext_cons, ctext_firstn, ctext_skipn in IH; cbn [fst blen] in IH.
        fold (ctext rest). rewrite Nat.add_assoc in IH.
        rewrite IH.
        destruct (tloop _ dest (skipn k rest) q); cbn [bind]; [|reflexivity|reflexivity].
        rewrite cbytes_cons; reflexivity.
Qed.

Lemma str_splice_app p m q new : str_splice (p ++ m ++ q) (blen p) (blen p + blen m) new = Ok (p ++ new ++ q).
Proof.
  unfold str_splice. replace (blen p <=? blen p + blen m) with true by lia.
  rewrite <- blen_app, app_assoc, bsplit_app, bsplit_app; reflexivity.
Qed.

Lemma splice_app {A} (p m q new : list A) a b :
  a = length p -> b = length p + length m -> splice (p ++ m ++ q) a b new = Ok (p ++ new ++ q).
Proof.
  intros -> ->. unfold splice.
  replace (_ && _) with true by (rewrite !app_length; lia).
  assert (E : skipn (length p + length m) (p ++ m ++ q) = q).
  { rewrite app_assoc, <- app_length, skipn_app, skipn_all, Nat.sub_diag; reflexivity. }
  rewrite E. rewrite firstn_app, firstn_all, Nat.sub_diag; cbn [firstn]; rewrite app_nil_r. reflexivity.
Qed.

Definition trange (orig : str) (p m q : cals) (dest : list (char * Z)) (k0 sh : nat) : res unit nstring :=
  match tloop (last_al (0, 0) (p ++ firstn k0 m)) dest (skipn k0 m) q with
  | Ok new => Ok (show orig (p ++ new ++ q) sh)
  | Err e => Err e
  | Panic => Panic
  end.

Lemma tloop_text dest : forall prev rest q new,
  tloop prev dest rest q = Ok new -> ctext new = map fst dest.
Proof.
  induction dest as [|[c ch] dest IH]; intros prev rest q new H; cbn [tloop] in H.
  - injection H as <-; reflexivity.
  - destruct (0 <? ch)%Z.
    + destruct (tloop prev dest rest q) as [n| |] eqn:E; try discriminate. injection H as <-.
      cbn; f_equal; eapply IH; eauto.
    + destruct (rest ++ q) as [|[c0 a] tl0]; [discriminate|]. cbv zeta in H.
      destruct (tloop _ dest _ q) as [n| |] eqn:E; try discriminate. injection H as <-.
      cbn; f_equal; eapply IH; eauto.
Qed.

Lemma tloop_no_err dest : forall prev rest q e, tloop prev dest rest q <> Err e.
Proof.
  induction dest as [|[c ch] dest IH]; intros prev rest q e H; cbn [tloop] in H; [discriminate|].
  destruct (0 <? ch)%Z.
  - destruct (tloop prev dest rest q) as [n|e'|] eqn:E; try discriminate. eapply IH; eauto.
  - destruct (rest ++ q) as [|[c0 a] tl0]; [discriminate|]. cbv zeta in H.
    destruct (tloop _ dest _ q) as [n|e'|] eqn:E; try discriminate. eapply IH; eauto.
Qed.

Lemma transform_range_cal orig p m q sh r dest k0 :
  (match r with
   | RNormalized s e => full_range s e (blen (ctext (p ++ m ++ q)))
                        = (blen (ctext p), blen (ctext p) + blen (ctext m))
   | ROriginal _ _ => convert_offsets (show orig (p ++ m ++ q) sh) r
                      = Some (blen (ctext p), blen (ctext p) + blen (ctext m))
   end) ->
  transform_range (show orig (p ++ m ++ q) sh) r dest k0 = trange orig p m q dest k0 sh.
Proof.
  intros Hr. unfold transform_range.
  assert (E : match r with
              | ROriginal _ _ => convert_offsets (show orig (p ++ m ++ q) sh) r
              | RNormalized s e => Some (full_range s e (n_len (show orig (p ++ m ++ q) sh)))
              end = Some (blen (ctext p), blen (ctext p) + blen (ctext m))).
  { destruct r; [exact Hr|]. f_equal; exact Hr. }
  rewrite E. cbn [n_normalized n_alignments n_original n_shift show]. clear E Hr.
  rewrite !ctext_app, str_get_app; cbn [of_option bind].
  rewrite <- ctext_firstn, <- ctext_skipn.
  rewrite (Nat.add_comm (blen (ctext (firstn k0 m)))), <- blen_app, <- ctext_app.
  pose proof (transform_loop_cal dest (p ++ firstn k0 m) (skipn k0 m) q) as T.
  rewrite <- app_assoc, (app_assoc (firstn k0 m)), firstn_skipn in T.
  rewrite T. unfold trange.
  destruct (tloop _ dest (skipn k0 m) q) as [new|e|] eqn:El; cbn [bind]; [|reflexivity|reflexivity].
  rewrite !cbytes_app.
  rewrite (splice_app (cbytes p) (cbytes m)) by (rewrite !length_cbytes; lia). cbn [bind].
  rewrite str_splice_app; cbn [bind]. unfold show. rewrite !ctext_app, !cbytes_app.
  rewrite (tloop_text _ _ _ _ _ El). reflexivity.
Qed.

(** What the loop produces stays between its surroundings. *)
Lemma last_al_In prev (cal : cals) : In (last_al prev cal) (prev :: map snd cal).
Proof. unfold last_al; destruct (last_In (map snd cal) prev) as [[_ E]|E]; [left; auto|right; auto]. Qed.

Lemma sorted_drop_middle prev (f r q : cals) :
  sorted_al (prev :: map snd (f ++ r) ++ map snd q) -> sorted_al (last_al prev f :: map snd r ++ map snd q).
Proof.
  intros H. rewrite map_app, <- app_assoc in H.
  destruct (last_In (map snd f) prev) as [[E1 E2]|E].
  - unfold last_al; rewrite E2. destruct (map snd f); [exact H|discriminate].
  - apply sorted_cons_inv in H; destruct H as [H _]. apply sorted_app_inv in H.
    destruct H as (_ & H2 & H3). apply sorted_cons; [exact H2|].
    intros b Hb; apply H3; [exact E|exact Hb].
Qed.

Lemma in_snd_firstn k (l : cals) a : In a (map snd (firstn k l)) -> In a (map snd l).
Proof. intros H; rewrite <- (firstn_skipn k l), map_app; apply in_or_app; auto. Qed.
Lemma in_snd_skipn k (l : cals) a : In a (map snd (skipn k l)) -> In a (map snd l).
Proof. intros H; rewrite <- (firstn_skipn k l), map_app; apply in_or_app; auto. Qed.

Lemma tloop_sorted dest : forall prev rest q new,
  changes_fit (length rest) dest ->
  sorted_al (prev :: map snd rest ++ map snd q) ->
  tloop prev dest rest q = Ok new ->
  sorted_al (prev :: map snd new ++ map snd q)
  /\ (forall a, In a (map snd new) -> a = prev \/ In a (map snd rest)).
Proof.
  induction dest as [|[c ch] dest IH]; intros prev rest q new Hf Hs H; cbn [tloop changes_fit] in H, Hf.
  - injection H as <-. split; [|intros ? []]. cbn [map app].
    apply sorted_cons_inv in Hs; destruct Hs as [Hs1 Hs2].
    apply sorted_app_inv in Hs1; destruct Hs1 as (_ & Hs1 & _).
    apply sorted_cons; [exact Hs1|]. intros b Hb; apply Hs2, in_or_app; auto.
  - destruct (0 <? ch)%Z.
    + destruct (tloop prev dest rest q) as [n| |] eqn:E; try discriminate. injection H as <-.
      destruct (IH _ _ _ _ Hf Hs E) as [I1 I2]. split.
      * cbn [map snd app]. apply sorted_cons; [exact I1|].
        intros b [<- | Hb]; [auto|]. apply sorted_cons_inv in I1; apply I1; exact Hb.
      * cbn [map snd]. intros a [<- | Ha]; auto.
    + destruct Hf as [Hn Hf]. destruct rest as [|[c0 a0] rest]; [cbn in Hn; lia|].
      cbn [app] in H. cbv zeta in H. cbn [firstn skipn] in H. set (k := Z.to_nat (- ch)) in *.
      rewrite last_al_cons in H; cbn [snd] in H.
      destruct (tloop _ dest _ q) as [n| |] eqn:E; try discriminate. injection H as <-.
      cbn [map snd app] in Hs. apply sorted_cons_inv in Hs; destruct Hs as [Hs Hp].
      assert (Hs' : sorted_al (last_al a0 (firstn k rest) :: map snd (skipn k rest) ++ map snd q)).
      { apply sorted_drop_middle. rewrite firstn_skipn; exact Hs. }
      destruct (IH (last_al a0 (firstn k rest)) (skipn k rest) q n) as [I1 I2]; [|exact Hs'|exact E|].
      { rewrite skipn_length. cbn [length] in Hf. replace (length rest - k) with (S (length rest) - 1 - k) by lia. exact Hf. }
      assert (Ha0 : ale a0 (last_al a0 (firstn k rest))).
      { destruct (last_al_In a0 (firstn k rest)) as [E'|E']; [rewrite <- E'; auto|].
        apply sorted_cons_inv in Hs; apply Hs. apply in_or_app; left.
        eapply in_snd_firstn; exact E'. }
      assert (S1 : sorted_al (a0 :: map snd n ++ map snd q)).
      { apply sorted_cons_inv in I1; destruct I1 as [I1 I3]. apply sorted_cons; [exact I1|].
        intros b Hb. eapply ale_trans; [exact Ha0|]. apply I3; exact Hb. }
      split.
      * cbn [map snd app]. apply sorted_cons; [exact S1|]. intros b [<- | Hb]; [apply Hp; left; reflexivity|].
        apply sorted_cons_inv in S1. eapply ale_trans; [apply Hp; left; reflexivity|]. apply S1; exact Hb.
      * cbn [map snd]. intros a [<- | Ha]; [right; left; reflexivity|].
        apply I2 in Ha. destruct Ha as [-> | Ha].
        -- right. destruct (last_al_In a0 (firstn k rest)) as [E'|E']; [left; exact E'|].
           right. eapply in_snd_firstn; exact E'.
        -- right; right. eapply in_snd_skipn; exact Ha.
Qed.

Lemma tloop_fit dest : forall prev rest new, tloop prev dest rest [] = Ok new -> changes_fit (length rest) dest.
Proof.
  induction dest as [|[c ch] dest IH]; intros prev rest new H; cbn [tloop changes_fit] in *; [exact I|].
  destruct (0 <? ch)%Z.
  - destruct (tloop prev dest rest []) as [n| |] eqn:E; try discriminate. eapply IH; eauto.
  - rewrite app_nil_r in H. destruct rest as [|[c0 a0] rest]; [discriminate|]. cbv zeta in H.
    split; [cbn; lia|]. destruct (tloop _ dest _ []) as [n| |] eqn:E; try discriminate.
    apply IH in E. cbn [skipn length] in *. rewrite skipn_length in E.
    replace (S (length rest) - 1 - Z.to_nat (- ch)) with (length rest - Z.to_nat (- ch)) by lia. exact E.
Qed.

Lemma wf_splice orig p m q k0 dest new :
  wf_cal orig (p ++ m ++ q) -> changes_fit (length m - k0) dest ->
  tloop (last_al (0, 0) (p ++ firstn k0 m)) dest (skipn k0 m) q = Ok new ->
  wf_cal orig (p ++ new ++ q).
Proof.
  intros [W1 W2] Hf H. set (prev := last_al (0, 0) (p ++ firstn k0 m)) in *.
  rewrite !map_app in W2.
  assert (Hprev : prev = (0, 0) \/ In prev (map snd (p ++ firstn k0 m))).
  { destruct (last_al_In (0, 0) (p ++ firstn k0 m)) as [E|E]; [left|right]; [symmetry|]; exact E. }
  assert (Sm : sorted_al (map snd (p ++ firstn k0 m) ++ map snd (skipn k0 m) ++ map snd q)).
  { rewrite app_assoc, <- map_app, <- app_assoc, firstn_skipn, map_app, <- app_assoc. exact W2. }
  assert (Ss : sorted_al (prev :: map snd (skipn k0 m) ++ map snd q)).
  { pose proof Sm as Sm'. apply sorted_app_inv in Sm'; destruct Sm' as (_ & S2 & S3).
    apply sorted_cons; [exact S2|]. intros b Hb. destruct Hprev as [-> | Hin]; [unfold ale; cbn; lia|].
    apply S3; auto. }
  rewrite <- skipn_length in Hf.
  destruct (tloop_sorted _ _ _ _ _ Hf Ss H) as [T1 T2].
  split.
  - rewrite !map_app, !Forall_app in *. destruct W1 as (A & B & C). repeat split; auto.
    apply Forall_forall; intros a Ha. apply T2 in Ha. destruct Ha as [-> | Ha].
    + destruct Hprev as [-> | Hin]; [apply okal_00|].
      apply in_app_or in Hin. destruct Hin as [Hin|Hin]; rewrite Forall_forall in *; auto.
      apply B. eapply in_snd_firstn; exact Hin.
    + rewrite Forall_forall in B; apply B. eapply in_snd_skipn; exact Ha.
  - rewrite !map_app. apply sorted_app.
    + apply sorted_app_inv in W2; apply W2.
    + apply sorted_cons_inv in T1; apply T1.
    + intros a b Ha Hb.
      assert (Hap : ale a prev).
      { rewrite map_app in Sm. rewrite <- app_assoc in Sm.
        assert (S' : sorted_al (map snd (p ++ firstn k0 m))).
        { rewrite map_app. rewrite app_assoc in Sm. apply sorted_app_inv in Sm; apply Sm. }
        unfold prev, last_al. apply sorted_last; [exact S'|]. rewrite map_app; apply in_or_app; auto. }
      eapply ale_trans; [exact Hap|]. apply sorted_cons_inv in T1; apply T1; exact Hb.
Qed.

(** ** convert_offsets *)
Definition wide (ts : nat) (a : nat * nat) : bool := (ts <=? fst a) && negb (fst a =? snd a).

Lemma conv_loop_app ts te al1 al2 : forall i st fn,
  Forall (fun a => snd a <= te) al1 ->
  conv_loop ts te (al1 ++ al2) i st fn =
  let '(st', fn') := conv_loop ts te al1 i st fn in conv_loop ts te al2 (i + length al1) st' fn'.
Proof.
  induction al1 as [|a al1 IH]; intros i st fn H.
  - cbn [app conv_loop length]; rewrite Nat.add_0_r; reflexivity.
  - inversion H; subst. cbn [app conv_loop]. replace (snd a <=? te) with true by lia. cbv zeta.
    rewrite IH by assumption. cbn [length]. replace (i + 1 + length al1) with (i + S (length al1)) by lia. reflexivity.
Qed.

Lemma conv_loop_narrow ts te al : forall i fn,
  Forall (fun a => snd a <= te) al -> Forall (fun a => wide ts a = false) al ->
  conv_loop ts te al i None fn = (None, match al with [] => fn | _ => Some (i + length al) end).
Proof.
  induction al as [|a al IH]; intros i fn H1 H2; [reflexivity|].
  inversion H1; inversion H2; subst. cbn [conv_loop]. replace (snd a <=? te) with true by lia. cbv zeta.
  unfold wide in H7.
  replace (if ts <=? fst a then if fst a =? snd a then None else Some i else None) with (@None nat)
    by (destruct (ts <=? fst a), (fst a =? snd a); cbn in H7; congruence).
  rewrite IH by assumption. f_equal. destruct al; cbn [length]; f_equal; lia.
Qed.

Lemma conv_loop_found ts te al : forall i s fn,
  Forall (fun a => snd a <= te) al ->
  conv_loop ts te al i (Some s) fn = (Some s, match al with [] => fn | _ => Some (i + length al) end).
Proof.
  induction al as [|a al IH]; intros i s fn H1; [reflexivity|].
  inversion H1; subst. cbn [conv_loop]. replace (snd a <=? te) with true by lia. cbv zeta.
  rewrite IH by assumption. f_equal. destruct al; cbn [length]; f_equal; lia.
Qed.

Lemma conv_loop_stop ts te al i st fn :
  match al with [] => True | a :: _ => te < snd a end -> conv_loop ts te al i st fn = (st, fn).
Proof. destruct al as [|a al]; [reflexivity|]. intros H; cbn [conv_loop]. replace (snd a <=? te) with false by lia. reflexivity. Qed.

(** The three zones cut by an original range [ts..te]: [z] not reached, [m] found, [q] after. *)
Definition zones (ts te : nat) (z m q : cals) : Prop :=
  Forall (fun ca => snd (snd ca) <= te) (z ++ m) /\
  Forall (fun ca => wide ts (snd ca) = false) z /\
  match m with [] => True | ca :: _ => wide ts (snd ca) = true end /\
  match q with [] => True | ca :: _ => te < snd (snd ca) end.

Lemma zones_exist ts te cal : exists z m q, cal = z ++ m ++ q /\ zones ts te z m q.
Proof.
  induction cal as [|ca cal (z & m & q & -> & H1 & H2 & H3 & H4)].
  - exists [], [], []. repeat split; constructor.
  - destruct (snd (snd ca) <=? te) eqn:E.
    + destruct (wide ts (snd ca)) eqn:Ew.
      * exists [], (ca :: z ++ m), q. cbn [app]. rewrite <- app_assoc. split; [reflexivity|].
        repeat split; auto; cbn [app]. constructor; [lia|exact H1].
      * exists (ca :: z), m, q. split; [reflexivity|]. repeat split; auto; cbn [app]; constructor; auto; lia.
    + exists [], [], (ca :: z ++ m ++ q). split; [reflexivity|]. repeat split; auto; try constructor. lia.
Qed.

Lemma Forall_cbytes (P : nat * nat -> Prop) cal :
  Forall (fun ca => P (snd ca)) cal -> Forall P (cbytes cal).
Proof.
  intros H; apply Forall_forall; intros a Ha. unfold cbytes in Ha; apply in_flat_map in Ha.
  destruct Ha as (ca & H1 & H2). apply repeat_spec in H2; subst. rewrite Forall_forall in H; auto.
Qed.

Lemma cbytes_nil_iff cal : cbytes cal = [] <-> cal = [].
Proof.
  split; [|intros ->; reflexivity]. destruct cal as [|[c a] cal]; [reflexivity|].
  rewrite cbytes_cons; cbn [fst snd]. pose proof (len_utf8_pos c); destruct (len_utf8 c); [lia|discriminate].
Qed.

Lemma convert_original orig cal sh ts te z m q :
  cal = z ++ m ++ q -> zones ts te z m q -> ts < te ->
  convert_offsets (show orig cal sh) (ro ts te) =
  match z ++ m with
  | [] => None
  | _ => Some (blen (ctext z), blen (ctext z) + blen (ctext m))
  end.
Proof.
  intros -> (H1 & H2 & H3 & H4) Ht. unfold convert_offsets; cbn [ro full_range n_alignments show].
  replace (ts =? te) with false by lia. replace (te <? ts) with false by lia.
  replace (te =? 0) with false by lia. rewrite !Bool.andb_false_r.
  apply Forall_app in H1; destruct H1 as [H1 H1'].
  assert (F1 : Forall (fun a => snd a <= te) (cbytes z)) by (apply Forall_cbytes; exact H1).
  assert (F2 : Forall (fun a => wide ts a = false) (cbytes z)) by (apply Forall_cbytes with (P := fun a => wide ts a = false); exact H2).
  assert (F3 : Forall (fun a => snd a <= te) (cbytes m)) by (apply Forall_cbytes; exact H1').
  assert (Hq : match cbytes q with [] => True | a :: _ => te < snd a end).
  { destruct q as [|[c a] q]; [exact I|]. rewrite cbytes_cons; cbn [fst snd] in *.
    pose proof (len_utf8_pos c); destruct (len_utf8 c); [lia|exact H4]. }
  rewrite !cbytes_app, conv_loop_app by assumption.
  rewrite conv_loop_narrow by assumption.
  rewrite conv_loop_app by assumption.
  destruct m as [|[c a] m].
  - cbn [cbytes flat_map conv_loop]. rewrite conv_loop_stop by assumption.
    rewrite app_nil_r. cbn [ctext map blen Nat.add].
    destruct (cbytes z) eqn:Ez.
    + apply cbytes_nil_iff in Ez; subst; reflexivity.
    + rewrite <- Ez, length_cbytes. destruct z; [discriminate|]. cbn [Nat.add]. rewrite Nat.add_0_r; reflexivity.
  - rewrite cbytes_cons; cbn [fst snd] in *.
    pose proof (len_utf8_pos c). destruct (len_utf8 c) as [|n] eqn:En; [lia|].
    cbn [repeat app conv_loop].
    inversion H1' as [|? ? Ha Hm]; subst; cbn [snd fst] in *.
    replace (snd a <=? te) with true by lia. cbv zeta.
    unfold wide in H3; apply andb_true_iff in H3; destruct H3 as [H3 H3'].
    apply negb_true_iff in H3'. rewrite H3, H3'.
    rewrite conv_loop_found.
    2:{ apply Forall_app; split; [apply Forall_forall; intros x Hx; apply repeat_spec in Hx; subst; lia|].
        apply Forall_cbytes; exact Hm. }
    rewrite conv_loop_stop by assumption.
    rewrite !Nat.add_0_l.
    assert (Hlen : length (cbytes z) + 1 + length (repeat a n ++ cbytes m)
                   = blen (ctext z) + blen (ctext ((c, a) :: m))).
    { rewrite app_length, repeat_length, !length_cbytes, ctext_cons; cbn [fst blen]; lia. }
    rewrite length_cbytes in *.
    assert (G : match repeat a n ++ cbytes m with
                | [] => Some (blen (ctext z) + 1)
                | _ :: _ => Some (blen (ctext z) + 1 + length (repeat a n ++ cbytes m))
                end = Some (blen (ctext z) + blen (ctext ((c, a) :: m)))).
    { rewrite <- Hlen. destruct (repeat a n ++ cbytes m); [cbn [length]; rewrite Nat.add_0_r; reflexivity|reflexivity]. }
    rewrite G. destruct z; reflexivity.
Qed.

Lemma convert_original_eq ns ts te s e :
  full_range s e (n_len_original ns) = (ts, te) -> convert_offsets ns (ROriginal s e) = convert_offsets ns (ro ts te).
Proof. intros H; unfold convert_offsets, ro. rewrite H; reflexivity. Qed.

Lemma convert_normalized_eq ns ts te s e :
  full_range s e (n_len ns) = (ts, te) -> convert_offsets ns (RNormalized s e) = convert_offsets ns (rn ts te).
Proof. intros H; unfold convert_offsets, rn. rewrite H; reflexivity. Qed.

(** The whole original range. *)
Lemma wf_snd_le orig cal ca : wf_cal orig cal -> In ca cal -> snd (snd ca) <= blen orig.
Proof.
  intros [W _] H. rewrite Forall_forall in W. destruct (W (snd ca) (in_map snd _ _ H)) as (_ & _ & B).
  apply is_boundary_le in B; exact B.
Qed.

Lemma zones_full orig cal z m q :
  wf_cal orig cal -> cal = z ++ m ++ q -> zones 0 (blen orig) z m q -> q = [].
Proof.
  intros W -> (_ & _ & _ & H). destruct q as [|ca q]; [reflexivity|].
  pose proof (wf_snd_le _ _ ca W). exfalso. enough (snd (snd ca) <= blen orig) by lia. apply H0.
  rewrite !in_app_iff; right; right; left; reflexivity.
Qed.

(** Splitting the whole-range transform into its cases. *)
Lemma transform_cases orig cal sh dest k0 :
  wf_cal orig cal ->
  (orig = [] /\ transform (show orig cal sh) dest k0 = trange orig [] [] cal dest k0 sh) \/
  (orig <> [] /\ cal = [] /\ transform (show orig cal sh) dest k0 = Ok (show orig cal sh)) \/
  (orig <> [] /\ exists z m, cal = z ++ m /\ zones 0 (blen orig) z m [] /\ cal <> [] /\
     transform (show orig cal sh) dest k0 = trange orig z m [] dest k0 sh).
Proof.
  intros W. unfold transform. destruct orig as [|o os] eqn:Eo.
  - left; split; [reflexivity|]. apply (transform_range_cal [] [] [] cal sh). reflexivity.
  - right. rewrite <- Eo in *. assert (Hpos : 0 < blen orig).
    { subst; cbn [blen]; pose proof (len_utf8_pos o); lia. }
    assert (Hne : orig <> []) by (subst; discriminate). clear Eo.
    assert (Ec : forall c, convert_offsets (show orig c sh) (ROriginal Unbounded Unbounded)
              = convert_offsets (show orig c sh) (ro 0 (blen orig))).
    { intros c; apply convert_original_eq; reflexivity. }
    destruct (zones_exist 0 (blen orig) cal) as (z & m & q & E & Z).
    assert (q = []) by (eapply zones_full; eauto). subst q. rewrite app_nil_r in E.
    pose proof (convert_original orig cal sh 0 (blen orig) z m [] ltac:(rewrite app_nil_r; exact E) Z Hpos) as C.
    destruct cal as [|ca cal'].
    + left. split; [exact Hne|split; [reflexivity|]]. unfold transform_range. rewrite Ec, C.
      rewrite <- E; reflexivity.
    + right. split; [exact Hne|]. exists z, m. split; [exact E|]. split; [exact Z|]. split; [discriminate|].
      rewrite E in C |- *. rewrite <- (app_nil_r m) at 1. apply transform_range_cal.
      rewrite app_nil_r, Ec, C. rewrite <- E. reflexivity.
Qed.

Lemma trange_wf orig p m q dest k0 sh ns' :
  wf_cal orig (p ++ m ++ q) -> changes_fit (length m - k0) dest ->
  trange orig p m q dest k0 sh = Ok ns' ->
  exists cal', ns' = show orig cal' sh /\ wf_cal orig cal'.
Proof.
  intros W F H. unfold trange in H.
  destruct (tloop _ dest _ q) as [new| |] eqn:E; try discriminate. injection H as <-.
  eexists; split; [reflexivity|]. eapply wf_splice; eauto.
Qed.

Lemma trange_wf_nil orig p m dest k0 sh ns' :
  wf_cal orig (p ++ m) -> trange orig p m [] dest k0 sh = Ok ns' ->
  exists cal', ns' = show orig cal' sh /\ wf_cal orig cal'.
Proof.
  intros W H. apply (trange_wf orig p m [] dest k0 sh ns'); [rewrite app_nil_r; exact W| |exact H].
  unfold trange in H. destruct (tloop _ dest _ []) as [new| |] eqn:E; try discriminate.
  apply tloop_fit in E. rewrite skipn_length in E; exact E.
Qed.
