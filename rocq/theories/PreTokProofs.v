(** Lemmas behind C21: cutting a pre-tokenised string. *)
From Verif Require Import Base ListFacts StrBytes EncodingModel EncodingSpec NormModel NormSpec NormProofs
  NormProofs6 PreTokModel PreTokSpec.

Notation cals := (list (char * (nat * nat))) (only parsing).

Lemma cal_inj : forall c1 c2 : cals, ctext c1 = ctext c2 -> cbytes c1 = cbytes c2 -> c1 = c2.
Proof.
  induction c1 as [|[x a] c1 IH]; intros [|[y b] c2] H1 H2; try discriminate H1; [reflexivity|].
  rewrite !ctext_cons in H1. cbn [fst] in H1. injection H1 as -> H1.
  rewrite !cbytes_cons in H2. cbn [fst snd] in H2.
  apply app_split_len in H2; [|rewrite !repeat_length; reflexivity]. destruct H2 as [H2 H3].
  pose proof (len_utf8_pos y) as L. destruct (len_utf8 y) as [|k]; [lia|]. cbn in H2. injection H2 as -> _.
  f_equal. apply IH; assumption.
Qed.

Lemma shows_inj ns c1 c2 : shows ns c1 -> shows ns c2 -> c1 = c2.
Proof. intros [A B] [C D]. apply cal_inj; congruence. Qed.

Definition shift_by (u : nat) (ca : char * (nat * nat)) : char * (nat * nat) :=
  (fst ca, (fst (snd ca) - u, snd (snd ca) - u)).

Lemma map_concat_lift {A B C} (f : A -> B) : forall (marks1 : list (list B * C)) (seg : list A),
  map f seg = concat (map fst marks1) ->
  exists marks : list (list A * C), concat (map fst marks) = seg /\
    map (fun m => (map f (fst m), snd m)) marks = marks1.
Proof.
  induction marks1 as [|[t c] m IH]; intros seg H.
  - cbn in H. apply map_eq_nil in H. subst. exists []. auto.
  - cbn [map concat fst] in H. apply map_eq_app in H. destruct H as (s1 & s2 & -> & <- & H).
    destruct (IH _ H) as (marks & H1 & H2). exists ((s1, c) :: marks).
    cbn [map concat fst snd]. rewrite H1, H2. auto.
Qed.

Lemma last_al_shift u a r : last_al (fst a - u, snd a - u) (map (shift_by u) r)
  = (fst (last_al a r) - u, snd (last_al a r) - u).
Proof.
  unfold last_al. revert a. induction r as [|[c b] r IH]; intros a; [reflexivity|].
  destruct r as [|d r]; [reflexivity|]. cbn [map shift_by fst snd] in *.
  change (last ((fst b - u, snd b - u) :: map snd (map (shift_by u) (d :: r))) (fst a - u, snd a - u))
    with (last (map snd (map (shift_by u) (d :: r))) (fst a - u, snd a - u)).
  change (last (b :: map snd (d :: r)) a) with (last (map snd (d :: r)) a).
  apply (IH a).
Qed.

(** All the ranges of a segment start at or after [u] and are not inverted. *)
Definition from_pos (u : nat) (seg : cals) : Prop := Forall (fun ca => u <= fst (snd ca) <= snd (snd ca)) seg.

Lemma from_pos_last u a r : u <= fst a <= snd a -> from_pos u r -> u <= fst (last_al a r) <= snd (last_al a r).
Proof.
  intros H F. destruct (last_al_In a r) as [<-|H']; [exact H|].
  apply in_map_iff in H'. destruct H' as (ca & <- & Hin). unfold from_pos in F. rewrite Forall_forall in F. auto.
Qed.

Lemma part_of_shift ns c a r ns1 u v t ns2 :
  n_original ns = u ++ n_original ns1 ++ v -> n_shift ns1 = n_shift ns + blen u ->
  from_pos (blen u) ((c, a) :: r) -> incl t ((c, a) :: r) ->
  part_of ns1 (map (shift_by (blen u)) t) ns2 -> part_of ns t ns2.
Proof.
  intros Ho Hs F I H. destruct t as [|[c' a'] r']; [exact H|].
  cbn [map part_of shift_by fst snd] in H. destruct H as (u' & v' & Ho' & Hf & Hl & Hs' & Hsh).
  assert (F' : from_pos (blen u) ((c', a') :: r')).
  { unfold from_pos in *. apply Forall_forall. rewrite Forall_forall in F. auto. }
  inversion F' as [|x y F1 F2]; subst x y. cbn [fst snd] in F1.
  rewrite last_al_shift in Hl. cbn [snd] in Hl. pose proof (from_pos_last _ _ _ F1 F2) as FL.
  cbn [part_of]. exists (u ++ u'), (v' ++ v). split.
  { rewrite Ho, Ho', <- !app_assoc. reflexivity. }
  rewrite blen_app. split; [lia|]. split; [lia|]. split; [lia|].
  replace (map _ ((c', a') :: r')) with
    (map (fun ca : char * (nat * nat) => (fst ca, (fst (snd ca) - blen u', snd (snd ca) - blen u')))
         ((c', (fst a' - blen u, snd a' - blen u)) :: map (shift_by (blen u)) r')); [exact Hsh|].
  cbn [map fst snd]. f_equal; [f_equal; f_equal; lia|]. rewrite map_map. apply map_ext. intros ca.
  cbn [shift_by fst snd]. f_equal. f_equal; lia.
Qed.

Definition wf_seg (seg : cals) : Prop :=
  sorted_al (map snd seg) /\ Forall (fun ca => fst (snd ca) <= snd (snd ca)) seg.

Lemma wf_seg_from c a r : wf_seg ((c, a) :: r) -> from_pos (fst a) ((c, a) :: r).
Proof.
  intros [S F]. unfold from_pos. inversion F as [|x y F1 F2]; subst. cbn [fst snd] in F1.
  constructor; [cbn; lia|]. cbn [map snd] in S. apply sorted_cons_inv in S. destruct S as [_ S].
  rewrite Forall_forall in *. intros ca Hin. pose proof (F2 _ Hin).
  destruct (S (snd ca)) as [A B]; [apply in_map; exact Hin|]. lia.
Qed.

Lemma wf_seg_app a b : wf_seg (a ++ b) -> wf_seg a /\ wf_seg b.
Proof.
  intros [S F]. rewrite map_app in S. apply sorted_app_inv in S. destruct S as (S1 & S2 & _).
  apply Forall_app in F. destruct F. split; split; assumption.
Qed.

Lemma wf_cal_seg orig cal : wf_cal orig cal -> wf_seg cal.
Proof.
  intros [F S]. split; [exact S|]. rewrite Forall_forall in *. intros ca Hin.
  destruct (F (snd ca)) as [H _]; [apply in_map; exact Hin|]. exact H.
Qed.

Definition marks_of P (ns : nstring) (marks : list (cals * bool)) (pieces : list nstring) : Prop :=
  (forall t, In (t, false) marks -> Forall (fun ca => P (fst ca)) t) /\
  Forall2 (fun t ns' => part_of ns t ns' /\ aligned ns') (kept_parts marks) pieces.

Lemma kept_parts_app {A} (a b : list (A * bool)) : kept_parts (a ++ b) = kept_parts a ++ kept_parts b.
Proof. unfold kept_parts. rewrite filter_app, map_app. reflexivity. Qed.

Lemma marks_app P ns m1 m2 p1 p2 : marks_of P ns m1 p1 -> marks_of P ns m2 p2 -> marks_of P ns (m1 ++ m2) (p1 ++ p2).
Proof.
  intros [A B] [C D]. split.
  - intros t H. apply in_app_or in H. destruct H; eauto.
  - rewrite kept_parts_app. apply Forall2_app; assumption.
Qed.

(** Cutting a part of [ns] gives parts of [ns]. *)
Lemma cut_part P ns seg ns1 pieces :
  wf_seg seg -> part_of ns seg ns1 -> cut_into P ns1 pieces ->
  exists marks, concat (map fst marks) = seg /\ marks_of P ns marks pieces.
Proof.
  intros W H (marks1 & S1 & D1 & F1). destruct seg as [|[c a] r].
  - (* empty part: every piece is empty *)
    destruct H as (T & _ & _). destruct S1 as [S1 _]. rewrite T in S1.
    assert (N : forall m, In m marks1 -> fst m = []).
    { intros m Hm. assert (Hc : concat (map fst marks1) = []).
      { unfold ctext in S1. symmetry in S1. apply map_eq_nil in S1. exact S1. }
      clear -Hm Hc. induction marks1 as [|x l IH]; [destruct Hm|]. cbn in Hc. apply app_eq_nil in Hc.
      destruct Hm as [<-|Hm]; tauto. }
    exists marks1. split.
    { clear -N. induction marks1 as [|x l IH]; [reflexivity|]. cbn. rewrite (N x) by (left; reflexivity).
      apply IH. intros m Hm. apply N. right. exact Hm. }
    split; [exact D1|].
    assert (N' : forall t, In t (kept_parts marks1) -> t = []).
    { intros t Ht. unfold kept_parts in Ht. apply in_map_iff in Ht. destruct Ht as (m & <- & Hm).
      apply filter_In in Hm. apply N. tauto. }
    clear -F1 N'. induction F1 as [|t p ts ps [Hp Ha] _ IH]; constructor.
    + split; [|exact Ha]. rewrite (N' t) in * by (left; reflexivity). exact Hp.
    + apply IH. intros t' Ht'. apply N'. right. exact Ht'.
  - cbn [part_of] in H. destruct H as (u & v & Ho & Hf & _ & Hs & Hsh).
    pose proof (shows_inj _ _ _ S1 Hsh) as E. symmetry in E.
    change (fun ca : char * (nat * nat) => (fst ca, (fst (snd ca) - blen u, snd (snd ca) - blen u)))
      with (shift_by (blen u)) in E.
    destruct (map_concat_lift (shift_by (blen u)) marks1 _ E) as (marks & C & M).
    exists marks. split; [exact C|]. pose proof (wf_seg_from _ _ _ W) as FP. rewrite Hf in FP. split.
    + intros t Ht. assert (Ht1 : In (map (shift_by (blen u)) t, false) marks1).
      { rewrite <- M. apply in_map_iff. exists (t, false). auto. }
      apply D1 in Ht1. rewrite Forall_forall in *. intros ca Hin.
      apply (Ht1 (shift_by (blen u) ca)). apply in_map. exact Hin.
    + assert (K : kept_parts marks1 = map (map (shift_by (blen u))) (kept_parts marks)).
      { rewrite <- M. unfold kept_parts. clear. induction marks as [|[t b] l IH]; [reflexivity|]. cbn [map fst snd filter].
        destruct b; cbn [map fst]; rewrite IH; reflexivity. }
      rewrite K in F1.
      assert (I : forall t, In t (kept_parts marks) -> incl t ((c, a) :: r)).
      { intros t Ht ca Hca. rewrite <- C. apply in_concat. exists t. split; [|exact Hca].
        unfold kept_parts in Ht. apply in_map_iff in Ht. destruct Ht as (m & <- & Hm). apply filter_In in Hm.
        apply in_map. tauto. }
      clear -F1 I Ho Hs FP. remember (map (map (shift_by (blen u))) (kept_parts marks)) as k eqn:Ek.
      revert Ek I. generalize (kept_parts marks) as ts. induction F1 as [|t p k ps [Hp Ha] _ IH]; intros ts Ek I;
        destruct ts as [|t' ts]; try discriminate Ek; constructor.
      * cbn in Ek. injection Ek as -> Ek. split; [|exact Ha].
        eapply part_of_shift; eauto. apply I. left. reflexivity.
      * cbn in Ek. injection Ek as _ Ek. apply IH; [exact Ek|]. intros x Hx. apply I. right. exact Hx.
Qed.

Lemma keep_nonempty_cut P ns (new : list split) :
  cut_into P ns (map sp_norm new) -> cut_into P ns (map sp_norm (keep_nonempty new)).
Proof.
  intros (marks & S & D & F).
  exists (map (fun m => if is_nil (fst m) then ([], false) else m) marks).
  split; [|split].
  - replace (concat _) with (concat (map fst marks)); [exact S|]. clear. induction marks as [|[t b] l IH]; [reflexivity|].
    cbn [map concat fst]. rewrite IH. destruct t; reflexivity.
  - intros t Ht. apply in_map_iff in Ht. destruct Ht as ([t' b] & E & Hin). cbn [fst] in E.
    destruct t' as [|x t']; cbn [is_nil] in E.
    + injection E as <-. constructor.
    + injection E as <- ->. eauto.
  - clear S D. revert new F. induction marks as [|[t b] l IH]; intros new F.
    + cbn in F. destruct new; [constructor|inversion F].
    + cbn [kept_parts map filter snd] in F. destruct b.
      * cbn [map fst] in F. destruct new as [|sp new]; [inversion F|]. cbn [map] in F.
        inversion F as [|x y xs ys [Hp Ha] F']; subst. pose proof (part_of_text _ _ _ Hp) as T.
        unfold keep_nonempty. cbn [filter]. rewrite T. specialize (IH _ F'). destruct t as [|ca t]; cbn [ctext map is_nil negb fst].
        -- exact IH.
        -- unfold kept_parts. cbn [filter snd map fst]. constructor; [split; assumption|exact IH].
      * specialize (IH _ F). destruct t; exact IH.
Qed.

Section cutting.
  Context {E : Type} (P : char -> Prop) (f : nat -> nstring -> res E (list split)) (ns : nstring).

  Lemma split_loop_cut : only_cuts P f -> forall marks l i l',
    wf_seg (concat (map fst marks)) -> marks_of P ns marks (map sp_norm l) ->
    split_loop f i l = Ok l' ->
    exists marks', concat (map fst marks') = concat (map fst marks) /\ marks_of P ns marks' (map sp_norm l').
  Proof.
    intros Hf. induction marks as [|[t b] marks IH]; intros l i l' W [D F] H.
    - cbn in F. destruct l; [|inversion F]. cbn in H. injection H as <-. exists []. split; [reflexivity|]. split; [exact D|constructor].
    - cbn [map concat fst] in W. apply wf_seg_app in W. destruct W as [W1 W2].
      cbn [kept_parts map filter snd] in F. destruct b.
      + cbn [map fst] in F. destruct l as [|sp l]; [inversion F|]. cbn [map] in F.
        inversion F as [|x y xs ys [Hp Ha] F']; subst. cbn [split_loop] in H.
        assert (M : marks_of P ns marks (map sp_norm l)) by (split; [intros t0 H0; apply D; right; exact H0|exact F']).
        destruct (sp_tokens sp) as [ts|].
        * apply bind_ok in H. destruct H as (r & H1 & H2). injection H2 as <-.
          destruct (IH _ _ _ W2 M H1) as (marks' & C & M').
          exists ((t, true) :: marks'). split; [cbn [map concat fst]; rewrite C; reflexivity|].
          cbn [map]. apply (marks_app P ns [(t, true)] marks' [sp_norm sp]); [|exact M'].
          split; [intros t0 [H0|[]]; discriminate|]. constructor; [split; assumption|constructor].
        * apply bind_ok in H. destruct H as (new & H1 & H2). apply bind_ok in H2. destruct H2 as (r & H2 & H3).
          injection H3 as <-. destruct (IH _ _ _ W2 M H2) as (marks' & C & M').
          pose proof (keep_nonempty_cut _ _ _ (Hf _ _ _ Ha H1)) as K.
          destruct (cut_part _ _ _ _ _ W1 Hp K) as (marks1 & C1 & M1).
          exists (marks1 ++ marks'). rewrite map_app, concat_app. cbn [map concat fst]. rewrite C, C1.
          split; [reflexivity|]. rewrite map_app. apply marks_app; assumption.
      + assert (M : marks_of P ns marks (map sp_norm l)) by (split; [intros t0 H0; apply D; right; exact H0|exact F]).
        destruct (IH _ _ _ W2 M H) as (marks' & C & M').
        exists ((t, false) :: marks'). split; [cbn [map concat fst]; rewrite C; reflexivity|].
        apply (marks_app P ns [(t, false)] marks' []); [|exact M']. split; [|constructor].
        intros t0 [H0|[]]. injection H0 as <-. apply D. left. reflexivity.
  Qed.

  Lemma split_loop_nonempty : forall l i l', split_loop f i l = Ok l' ->
    Forall (fun sp => n_normalized (sp_norm sp) <> []) (filter has_tokens l) ->
    Forall (fun sp => n_normalized (sp_norm sp) <> []) l'.
  Proof.
    assert (K : forall l, Forall (fun sp => n_normalized (sp_norm sp) <> []) (keep_nonempty l)).
    { intros l. apply Forall_forall. intros sp H. apply filter_In in H. destruct H as [_ H].
      destruct (n_normalized (sp_norm sp)); [discriminate|congruence]. }
    induction l as [|sp l IH]; intros i l' H F; cbn [split_loop] in H.
    - injection H as <-. constructor.
    - unfold has_tokens in F. cbn [filter] in F. destruct (sp_tokens sp) as [ts|].
      + apply bind_ok in H. destruct H as (r & H1 & H2). injection H2 as <-. inversion F; subst.
        constructor; eauto.
      + apply bind_ok in H. destruct H as (new & H1 & H2). apply bind_ok in H2. destruct H2 as (r & H2 & H3).
        injection H3 as <-. apply Forall_app. split; eauto.
  Qed.
End cutting.

Lemma map_res_ok {E A B} (f : A -> res E B) : forall l l', map_res f l = Ok l' -> Forall2 (fun a b => f a = Ok b) l l'.
Proof.
  induction l as [|a l IH]; intros l' H; cbn [map_res] in H; [injection H as <-; constructor|].
  apply bind_ok in H. destruct H as (b & H1 & H2). apply bind_ok in H2. destruct H2 as (bs & H2 & H3).
  injection H3 as <-. constructor; auto.
Qed.

Lemma tokenize_norms {E} (f : nstring -> res E (list token)) l l' :
  map_res (tokenize_one f) l = Ok l' -> map sp_norm l' = map sp_norm l.
Proof.
  intros H. apply map_res_ok in H. induction H as [|sp sp' l l' H _ IH]; [reflexivity|]. cbn. rewrite IH. f_equal.
  unfold tokenize_one in H. destruct (sp_tokens sp); [congruence|].
  apply bind_ok in H. destruct H as (ts & _ & H). injection H as <-. reflexivity.
Qed.

Definition cut_inv P ns pt : Prop :=
  (exists t, pt_splits pt = [mkSplit ns t]) \/
  (Forall (fun n => n_normalized n <> []) (map sp_norm (pt_splits pt)) /\ cut_into P ns (map sp_norm (pt_splits pt))).

Lemma cut_history_inv P ns : aligned ns -> forall pt, cut_history P ns pt -> cut_inv P ns pt /\ pt_original pt = n_original ns.
Proof.
  intros A pt H. induction H as [|E f pt pt' _ [IH IO] Hf H|E f pt pt' _ [IH IO] H].
  - split; [|reflexivity]. left. exists None. reflexivity.
  - unfold pt_split in H. apply bind_ok in H. destruct H as (l & H1 & H2). injection H2 as <-. cbn [pt_original].
    split; [|exact IO].
    destruct IH as [[t Ht]|[N C]].
    + rewrite Ht in H1. cbn [split_loop sp_tokens sp_norm] in H1. destruct t as [ts|].
      * cbn in H1. injection H1 as <-. left. exists (Some ts). reflexivity.
      * right. cbn [pt_splits]. split.
        -- apply Forall_map. apply (split_loop_nonempty f [mkSplit ns None] 0); [cbn [split_loop sp_tokens sp_norm]; exact H1|constructor].
        -- apply bind_ok in H1. destruct H1 as (new & H1 & H2). cbn in H2. injection H2 as <-. rewrite app_nil_r.
           apply keep_nonempty_cut. eapply Hf; eauto.
    + right. cbn [pt_splits]. split.
      * apply Forall_map. apply (split_loop_nonempty f _ _ _ H1). rewrite Forall_forall in *.
        intros sp Hin. apply filter_In in Hin. exact (N _ (in_map sp_norm _ _ (proj1 Hin))).
      * destruct C as (marks & S & D & F).
        assert (W : wf_seg (concat (map fst marks))).
        { destruct (aligned_cal _ A) as (cal & S' & W). rewrite (shows_inj _ _ _ S S'). eapply wf_cal_seg; eauto. }
        destruct (split_loop_cut P f ns Hf marks _ _ _ W (conj D F) H1) as (marks' & C & D' & F').
        exists marks'. rewrite C. split; [exact S|]. split; assumption.
  - unfold pt_tokenize in H. apply bind_ok in H. destruct H as (l & H1 & H2). injection H2 as <-. cbn [pt_original].
    split; [|exact IO]. pose proof (tokenize_norms _ _ _ H1) as N. destruct IH as [[t Ht]|IH].
    + left. rewrite Ht in H1. apply map_res_ok in H1. inversion H1 as [|x y xs ys Hxy Hr]; subst. inversion Hr; subst.
      cbn [pt_splits]. unfold tokenize_one in Hxy. cbn [sp_tokens sp_norm] in Hxy. destruct t; [injection Hxy as <-; eauto|].
      apply bind_ok in Hxy. destruct Hxy as (ts & _ & Hx). injection Hx as <-. eauto.
    + right. cbn [pt_splits]. rewrite N. exact IH.
Qed.

(** Reading the invariant: texts. *)
Lemma drops_app P a b c d : drops P a b -> drops P c d -> drops P (a ++ c) (b ++ d).
Proof. induction 1; intros; cbn [app]; [assumption|constructor; auto|constructor; auto]. Qed.
Lemma drops_all P s : Forall P s -> drops P s [].
Proof. induction 1; constructor; auto. Qed.
Lemma drops_refl P s : drops P s s.
Proof. induction s; constructor; auto. Qed.
Lemma drops_none s t : drops (fun _ => False) s t -> s = t.
Proof. induction 1; [reflexivity|congruence|contradiction]. Qed.

Lemma cut_drops P ns pieces : cut_into P ns pieces -> drops P (n_normalized ns) (concat (map n_normalized pieces)).
Proof.
  intros (marks & [S _] & D & F). rewrite S. clear S. revert pieces F. induction marks as [|[t b] marks IH]; intros pieces F.
  - cbn in F. inversion F. constructor.
  - assert (IH' : forall pieces, Forall2 (fun t ns' => part_of ns t ns' /\ aligned ns') (kept_parts marks) pieces ->
       drops P (ctext (concat (map fst marks))) (concat (map n_normalized pieces))).
    { apply IH. intros t0 H0. apply D. right. exact H0. }
    cbn [map concat fst]. rewrite ctext_app. cbn [kept_parts filter snd] in F. destruct b.
    + cbn [map fst] in F. inversion F as [|x y xs ys [Hp Ha] F']; subst. cbn [map concat].
      apply drops_app; [|apply IH'; exact F']. rewrite (part_of_text _ _ _ Hp). apply drops_refl.
    + change (concat (map n_normalized pieces)) with ([] ++ concat (map n_normalized pieces)).
      apply drops_app; [|apply IH'; exact F]. apply drops_all. unfold ctext.
      apply Forall_map. apply D. left. reflexivity.
Qed.

(** Offsets. *)
Lemma part_of_offsets ns c a r ns' : part_of ns ((c, a) :: r) ns' ->
  offsets_original ns' = (n_shift ns + fst a, n_shift ns + snd (last_al a r)) /\
  exists u v, n_original ns = u ++ n_original ns' ++ v /\ n_shift ns' = n_shift ns + blen u.
Proof.
  intros (u & v & Ho & Hf & Hl & Hs & _). unfold offsets_original, n_len_original. split; [f_equal; lia|eauto].
Qed.

Lemma kept_parts_in {A} (marks : list (list A * bool)) : forall t, In t (kept_parts marks) -> incl t (concat (map fst marks)).
Proof.
  intros t Ht x Hx. apply in_concat. exists t. split; [|exact Hx]. unfold kept_parts in Ht. apply in_map_iff in Ht.
  destruct Ht as (m & <- & Hm). apply filter_In in Hm. apply in_map. tauto.
Qed.

Lemma wf_seg_last_le a b c d ra rb : wf_seg (((c, a) :: ra) ++ (d, b) :: rb) ->
  fst a <= fst b /\ snd (last_al a ra) <= snd (last_al b rb).
Proof.
  intros [S F]. rewrite map_app in S. apply sorted_app_inv in S. destruct S as (_ & _ & S3).
  cbn [map snd] in S3. split.
  - destruct (S3 a b) as [H _]; [left; reflexivity|left; reflexivity|exact H].
  - destruct (S3 (last_al a ra) (last_al b rb)) as [_ H]; [apply (last_al_In a ra)|apply (last_al_In b rb)|exact H].
Qed.

Lemma last_al_in_seg (c : char) a r : exists c', In (c', last_al a r) ((c, a) :: r).
Proof.
  destruct (last_al_In a r) as [H|H]; [exists c; left; f_equal; exact H|].
  apply in_map_iff in H. destruct H as ([c' b] & E & H). cbn in E. subst b. exists c'. right. exact H.
Qed.

Lemma cut_ordered_aux ns : forall marks pieces, wf_seg (concat (map fst marks)) ->
  Forall2 (fun t ns' => part_of ns t ns' /\ aligned ns') (kept_parts marks) pieces ->
  Forall (fun n => n_normalized n <> []) pieces ->
  forall i j x y, i < j -> nth_error pieces i = Some x -> nth_error pieces j = Some y ->
    fst (offsets_original x) <= fst (offsets_original y) /\ snd (offsets_original x) <= snd (offsets_original y).
Proof.
  induction marks as [|[t b] marks IH]; intros pieces W F N i j x y Hij Hi Hj.
  - cbn in F. inversion F; subst. destruct i; discriminate.
  - cbn [map concat fst] in W. pose proof (proj2 (wf_seg_app _ _ W)) as W2. unfold kept_parts in F; cbn [filter snd] in F.
    destruct b; [|eapply IH; eauto].
    cbn [map fst] in F. inversion F as [|t' p ts ps [Hp Ha] F']; subst. inversion N as [|? ? N1 N2]; subst.
    destruct j as [|j]; [lia|]. cbn in Hj. destruct i as [|i]; [|cbn in Hi; eapply (IH ps) with (i := i) (j := j); eauto; lia].
    cbn in Hi. injection Hi as ->.
    destruct t as [|[c a] r]; [exfalso; apply N1; apply Hp|].
    assert (exists ty, In ty (kept_parts marks) /\ part_of ns ty y) as (ty & Hty & Hpy).
    { apply nth_error_In in Hj. clear -F' Hj. fold (kept_parts marks) in F'. induction F' as [|t p ts ps [Hp _] _ IH]; [destruct Hj|].
      destruct Hj as [<-|Hj]; [exists t; split; [left; reflexivity|exact Hp]|].
      destruct (IH Hj) as (t0 & H1 & H2). exists t0. split; [right; exact H1|exact H2]. }
    assert (Ny : n_normalized y <> []) by (rewrite Forall_forall in N2; apply N2; eapply nth_error_In; eauto).
    destruct ty as [|[d b] rb]; [exfalso; apply Ny; apply Hpy|].
    destruct (part_of_offsets _ _ _ _ _ Hp) as [-> _]. destruct (part_of_offsets _ _ _ _ _ Hpy) as [-> _]. cbn [fst snd].
    pose proof (kept_parts_in _ _ Hty) as I. destruct W as [S _]. rewrite map_app in S. apply sorted_app_inv in S.
    destruct S as (_ & _ & S3). split.
    + destruct (S3 a b) as [H _]; [left; reflexivity| |lia].
      change b with (snd (d, b)). apply in_map. apply I. left. reflexivity.
    + destruct (last_al_in_seg c a r) as [c1 H1]. destruct (last_al_in_seg d b rb) as [c2 H2].
      destruct (S3 (last_al a r) (last_al b rb)) as [_ H]; [| |lia].
      * change (last_al a r) with (snd (c1, last_al a r)). apply in_map. exact H1.
      * change (last_al b rb) with (snd (c2, last_al b rb)). apply in_map. apply I. exact H2.
Qed.

Lemma located_intro orig u ns v : orig = u ++ n_original ns ++ v -> n_shift ns = blen u -> located orig ns.
Proof.
  intros -> H. unfold located, offsets_original, n_len_original. cbn [fst snd]. rewrite H. apply str_get_app.
Qed.

(** The general invariant of [inside_history]. *)
Definition inside_inv (s : str) (pt : pretok) : Prop :=
  pt_original pt = s /\
  Forall (fun sp => aligned (sp_norm sp) /\ exists u v, s = u ++ n_original (sp_norm sp) ++ v /\ n_shift (sp_norm sp) = blen u)
         (pt_splits pt).

Lemma stays_inside_trans s ns ns' :
  (exists u v, s = u ++ n_original ns ++ v /\ n_shift ns = blen u) -> stays_inside ns ns' ->
  aligned ns' /\ exists u v, s = u ++ n_original ns' ++ v /\ n_shift ns' = blen u.
Proof.
  intros (u & v & -> & Hs) (A & u' & v' & Ho & Hs'). split; [exact A|].
  exists (u ++ u'), (v' ++ v). rewrite Ho, blen_app, <- !app_assoc. split; [reflexivity|lia].
Qed.

Lemma inside_history_inv s pt : inside_history s pt -> inside_inv s pt.
Proof.
  induction 1 as [ns A Ho Hs|E f pt pt' _ [IO IH] Hf H|E f pt pt' _ [IO IH] Hf H|E f pt pt' _ [IO IH] H].
  - split; [exact Ho|]. cbn. constructor; [|constructor]. cbn. split; [exact A|]. exists [], []. rewrite app_nil_r. cbn. auto.
  - unfold pt_split in H. apply bind_ok in H. destruct H as (l & H1 & H2). injection H2 as <-. split; [exact IO|].
    cbn [pt_splits]. clear IO. revert H1. generalize 0 as i. revert l. induction IH as [|sp l0 [A I] _ IH2]; intros l i H1; cbn [split_loop] in H1.
    + injection H1 as <-. constructor.
    + destruct (sp_tokens sp) as [ts|].
      * apply bind_ok in H1. destruct H1 as (r & H1 & H2). injection H2 as <-. constructor; [split; assumption|eauto].
      * apply bind_ok in H1. destruct H1 as (new & H1 & H2). apply bind_ok in H2. destruct H2 as (r & H2 & H3).
        injection H3 as <-. apply Forall_app. split; [|eauto]. apply Forall_forall. intros sp' Hin.
        apply filter_In in Hin. destruct Hin as [Hin Hne]. eapply stays_inside_trans; [exact I|]. eapply Hf; eauto.
        intros Z. rewrite Z in Hne. discriminate.
  - unfold pt_normalize in H. apply bind_ok in H. destruct H as (l & H1 & H2). injection H2 as <-. split; [exact IO|].
    cbn [pt_splits]. apply map_res_ok in H1. clear IO. induction H1 as [|sp sp' l l' H1 _ IH2]; [constructor|].
    inversion IH as [|? ? [A I] IH']; subst. constructor; [|auto]. unfold normalize_one in H1.
    destruct (sp_tokens sp) as [ts|]; [injection H1 as <-; split; assumption|].
    apply bind_ok in H1. destruct H1 as (ns' & H1 & H2). injection H2 as <-. cbn [sp_norm].
    destruct (Hf _ _ A H1) as [A' [So Ss]]. rewrite <- So, <- Ss. split; assumption.
  - unfold pt_tokenize in H. apply bind_ok in H. destruct H as (l & H1 & H2). injection H2 as <-. split; [exact IO|].
    cbn [pt_splits]. pose proof (tokenize_norms _ _ _ H1) as N. clear -IH N. revert l N. induction IH as [|sp l0 [A I] _ IH2]; intros l N;
      destruct l as [|sp' l]; try discriminate N; constructor.
    + cbn in N. injection N as -> N. split; assumption.
    + cbn in N. injection N as _ N. auto.
Qed.
