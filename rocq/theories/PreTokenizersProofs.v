(** Proofs about the pre-tokenizers: the relations hold of the segments. *)
From Verif Require Import Base ListFacts StrBytes Utf8 PatternModel PatternSpec PatternProofs EncodingModel NormModel NormSpec NormProofs NormProofs3 NormProofs4 NormProofs6 NormProps
  DecodersModel DecodersSpec DecodersProofs2 DecodersProofs3 PreTokSpec PreTokProofs PreTokProps EndToEndSpec EndToEndProofs PreTokenizersModel PreTokenizersSpec PreTokModel.

(** ** Splitting on a kind of character *)
Definition seg_ok (p : char -> bool) (sg : str * bool) : Prop :=
  if snd sg then exists c, fst sg = [c] /\ p c = true else fst sg <> [] /\ Forall (fun c => p c = false) (fst sg).

Lemma pred_segs_ok p s : s <> [] -> exists segs, covers_text (pred_find_matches p s) segs s /\ Forall (seg_ok p) segs /\ gaps_maximal segs.
Proof.
  intros N. destruct (C16_predicate p s) as (segs & C & F & G & L). exists segs. split; [exact C|]. split; [|exact G]. specialize (L N).
  apply Forall_forall. intros [t f] I. rewrite Forall_forall in L. specialize (L _ I). unfold seg_ok. cbn [fst snd] in *.
  assert (M : forall x, In x t -> f = p x).
  { intros x Hx. assert (J : In (x, f) (char_flags segs)).
    { apply in_flat_map. exists (t, f). split; [exact I|]. apply in_map_iff. exists x. split; [reflexivity|exact Hx]. }
    rewrite F in J. apply in_map_iff in J. destruct J as (y & E & _). injection E as -> ->. reflexivity. }
  destruct f.
  - destruct t as [|c [|]]; try discriminate. exists c. split; [reflexivity|]. symmetry. apply M. left. reflexivity.
  - split; [exact L|]. apply Forall_forall. intros x Hx. symmetry. apply M, Hx.
Qed.

Definition text_of (segs : list (str * bool)) : str := concat (map fst segs).
Definition begins_true (segs : list (str * bool)) : Prop := match segs with (_, false) :: _ => False | _ => True end.

Lemma gaps_tail t f segs : gaps_maximal ((t, f) :: segs) -> gaps_maximal segs /\ (f = false -> begins_true segs).
Proof. cbn [gaps_maximal]. destruct f, segs as [|[u []] r]; cbn; intuition congruence. Qed.

Lemma removed_runs p segs : Forall (seg_ok p) segs -> gaps_maximal segs -> forall prev, (prev = None \/ begins_true segs) ->
  class_runs (fun c => if p c then None else Some tt) prev (text_of segs) (spec_removed segs).
Proof.
  induction 1 as [|[t f] segs H _ IH]; intros G prev D; [constructor|]. apply gaps_tail in G. destruct G as [G B].
  unfold text_of, spec_removed. cbn [map filter fst snd concat]. destruct f; cbn [negb map fst].
  - destruct H as (c & E & P). cbn [fst] in E. subst t. apply cr_drop; [rewrite P; reflexivity|]. apply IH; auto.
  - destruct H as [N F]. apply (cr_run _ _ tt); [exact N| | |].
    + eapply Forall_impl; [|exact F]. cbn beta. intros c ->. reflexivity.
    + destruct D as [->|D]; [discriminate|destruct D].
    + apply IH; auto.
Qed.

Lemma begins_true_text p segs : Forall (seg_ok p) segs -> begins_true segs -> begins_with p (text_of segs).
Proof.
  intros F B. destruct F as [|[t f] segs H _]; [exact Logic.I|]. destruct f; [|destruct B]. destruct H as (c & E & P). cbn [fst] in E. subst t. exact P.
Qed.

Lemma isolated_apart p segs : Forall (seg_ok p) segs -> gaps_maximal segs -> marks_apart p (text_of segs) (spec_isolated segs).
Proof.
  induction 1 as [|[t f] segs H Fs IH]; intros G; [constructor|]. apply gaps_tail in G. destruct G as [G B].
  unfold text_of, spec_isolated. cbn [map fst concat]. destruct f.
  - destruct H as (c & E & P). cbn [fst] in E. subst t. apply ma_mark; auto.
  - destruct H as [N F]. apply ma_text; auto. apply begins_true_text; auto.
Qed.

Lemma previous_last p : forall n segs, length segs <= n -> Forall (seg_ok p) segs -> gaps_maximal segs -> marks_last p (text_of segs) (spec_previous segs).
Proof.
  induction n as [|n IH]; intros segs L F G; [destruct segs; [constructor|cbn in L; lia]|]. destruct F as [|[t f] segs H F]; [constructor|].
  cbn [length] in L. apply gaps_tail in G. destruct G as [G B]. unfold text_of. cbn [map fst concat]. destruct f.
  - destruct H as (c & E & P). cbn [fst] in E. subst t. cbn [spec_previous]. apply (ml_mark p [] c); auto. apply IH; auto. lia.
  - destruct H as [N Ft]. cbn [fst] in *. destruct F as [|[d g] segs H F].
    + cbn. rewrite app_nil_r. apply ml_rest; auto.
    + destruct g; [|destruct (B eq_refl)]. destruct H as (c & E & P). cbn [fst] in E. subst d. cbn [spec_previous map fst concat].
      apply gaps_tail in G. destruct G as [G _]. cbn [length] in L. apply ml_mark; auto. apply IH; auto. lia.
Qed.

Lemma next_first p : forall n segs, length segs <= n -> Forall (seg_ok p) segs -> gaps_maximal segs -> begins_true segs ->
  marks_first p (text_of segs) (spec_next segs).
Proof.
  induction n as [|n IH]; intros segs L F G BT; [destruct segs; [constructor|cbn in L; lia]|]. destruct F as [|[t f] segs H F]; [constructor|].
  cbn [length] in L. apply gaps_tail in G. destruct G as [G _]. unfold text_of. cbn [map fst concat]. destruct f; [|destruct BT].
  destruct H as (c & E & P). cbn [fst] in E. subst t. destruct F as [|[d g] segs H F].
  - cbn. apply (mf_mark p c [] [] []); auto. constructor.
  - cbn [length] in L. pose proof G as G0. apply gaps_tail in G. destruct G as [G B]. destruct g.
    + change (spec_next (([c], true) :: (d, true) :: segs)) with ([c] :: spec_next ((d, true) :: segs)).
      apply (mf_mark p c []); auto. apply IH; auto; cbn [length]; lia.
    + destruct H as [N Fd]. cbn [fst] in *. cbn [spec_next map fst concat app]. apply mf_mark; auto. apply IH; auto. lia.
Qed.

Lemma next_next p segs : Forall (seg_ok p) segs -> gaps_maximal segs -> marks_next p (text_of segs) (spec_next segs).
Proof.
  intros F G. destruct segs as [|[t [|]] segs].
  - apply mn_mark. constructor.
  - apply mn_mark. eapply next_first; eauto. exact Logic.I.
  - inversion F as [|? ? H F']; subst. destruct H as [N Ft]. apply gaps_tail in G. destruct G as [G B]. cbn [fst] in *.
    assert (E : spec_next ((t, false) :: segs) = t :: spec_next segs) by (destruct segs as [|[? []]]; reflexivity). rewrite E.
    apply mn_text; auto. eapply next_first; eauto.
Qed.

Lemma seg_ok_flag p t f : seg_ok p (t, f) -> t <> [] /\ Forall (fun c => p c = f) t.
Proof.
  unfold seg_ok. cbn [fst snd]. destruct f; [|auto]. intros (c & -> & P). split; [discriminate|]. constructor; [exact P|constructor].
Qed.

Lemma contiguous_run p segs : Forall (seg_ok p) segs -> match segs with
  | [] => True
  | (_, f) :: _ => exists u s us, spec_contiguous segs = u :: us /\ text_of segs = u ++ s /\ u <> [] /\ Forall (fun c => p c = f) u /\
      class_runs (fun c => Some (p c)) (Some f) s us
  end.
Proof.
  induction 1 as [|[t f] segs H F IH]; [exact Logic.I|]. apply seg_ok_flag in H. destruct H as [N Ft]. destruct segs as [|[t' f'] segs].
  - exists t, [], []. unfold text_of. cbn. split; [reflexivity|]. split; [reflexivity|]. split; [exact N|]. split; [exact Ft|constructor].
  - destruct IH as (u & s & us & E & ET & Nu & Fu & R). remember ((t', f') :: segs) as r eqn:Er.
    assert (Ec : spec_contiguous ((t, f) :: r) = if Bool.eqb f f' then (match spec_contiguous r with u :: us => (t ++ u) :: us | [] => [t] end) else t :: spec_contiguous r).
    { rewrite Er. reflexivity. }
    rewrite Ec, E. change (text_of ((t, f) :: r)) with (t ++ text_of r). rewrite ET. destruct (Bool.eqb f f') eqn:Ef.
    + apply Bool.eqb_prop in Ef. subst f'. exists (t ++ u), s, us. split; [reflexivity|]. split; [apply app_assoc|]. split; [destruct t; [congruence|discriminate]|].
      split; [apply Forall_app; auto|exact R].
    + exists t, (u ++ s), (u :: us). split; [reflexivity|]. split; [reflexivity|]. split; [exact N|]. split; [exact Ft|].
      apply (cr_run _ _ f'); [exact Nu| | |exact R].
      * eapply Forall_impl; [|exact Fu]. cbn beta. intros c ->. reflexivity.
      * intros X. injection X as ->. rewrite Bool.eqb_reflx in Ef. discriminate.
Qed.

Lemma contiguous_runs p segs : Forall (seg_ok p) segs -> class_runs (fun c => Some (p c)) None (text_of segs) (spec_contiguous segs).
Proof.
  intros F. pose proof (contiguous_run p segs F) as H. destruct segs as [|[t f] segs]; [constructor|].
  destruct H as (u & s & us & -> & -> & N & Fu & R). apply (cr_run _ _ f); auto; [|discriminate].
  eapply Forall_impl; [|exact Fu]. cbn beta. intros c ->. reflexivity.
Qed.

Lemma behavior_segs p b segs : Forall (seg_ok p) segs -> gaps_maximal segs -> by_behavior p b (text_of segs) (spec_split b segs).
Proof.
  intros F G. destruct b; cbn [by_behavior spec_split].
  - apply removed_runs; auto.
  - apply isolated_apart; auto.
  - eapply previous_last; eauto.
  - apply next_next; auto.
  - apply contiguous_runs; auto.
Qed.

(** No piece is empty. *)
Lemma behavior_nonempty p b s ps : by_behavior p b s ps -> Forall (fun x => x <> []) ps.
Proof.
  destruct b; cbn [by_behavior].
  - induction 1; auto.
  - induction 1; auto. constructor; [discriminate|auto].
  - induction 1; auto. constructor; [destruct x; discriminate|auto].
  - assert (K : forall s ps, marks_first p s ps -> Forall (fun x => x <> []) ps) by (induction 1; auto; constructor; [discriminate|auto]).
    intros [s' ps' H|x s' ps' N F H]; [eauto|]. constructor; eauto.
  - induction 1; auto.
Qed.
Lemma nonempty_parts_id l : Forall (fun x : str => x <> []) l -> nonempty_parts l = l.
Proof. unfold nonempty_parts. induction 1 as [|x l N _ IH]; [reflexivity|]. cbn [filter]. destruct x; [congruence|]. cbn [is_nil negb]. f_equal. exact IH. Qed.
Lemma behavior_empty p b : by_behavior p b [] [].
Proof. destruct b; cbn [by_behavior]; constructor. constructor. Qed.

(** The pieces of a split on a kind of character. *)
Lemma pred_split p b s : exists segs, covers_text (pred_find_matches p s) segs s /\ by_behavior p b s (nonempty_parts (spec_split b segs)).
Proof.
  destruct s as [|c s].
  - exists [([], false)]. split; [split; reflexivity|]. replace (nonempty_parts _) with (@nil str) by (destruct b; reflexivity). apply behavior_empty.
  - destruct (pred_segs_ok p (c :: s) ltac:(discriminate)) as (segs & C & F & G). exists segs. split; [exact C|].
    pose proof (behavior_segs p b segs F G) as H. rewrite (nonempty_parts_id _ (behavior_nonempty _ _ _ _ H)). destruct C as [-> _]. exact H.
Qed.

(** ** Pieces stay alive *)
Definition live (ns : nstring) : Prop := aligned ns /\ solid ns /\ text (n_normalized ns).

Lemma wf_seg_part segs t : wf_seg (concat segs) -> In t segs -> wf_seg t.
Proof. intros W I. apply wf_seg_concat in W. rewrite Forall_forall in W. auto. Qed.

Lemma spec_split_concat {A} b (segs : list (list A * bool)) : b <> Removed -> concat (spec_split b segs) = concat (map fst segs).
Proof.
  intros Hb. destruct b; cbn [spec_split]; try congruence.
  - apply concat_isolated.
  - eapply concat_previous; eauto.
  - eapply concat_next; eauto.
  - apply concat_contiguous.
Qed.
(** The pieces are made of a list of parts whose concatenation is known. *)
Lemma spec_split_parts {A} b (segs : list (list A * bool)) : exists all, concat all = concat (map fst segs) /\ incl (spec_split b segs) all.
Proof.
  assert (D : b = Removed \/ b <> Removed) by (destruct b; auto; right; discriminate). destruct D as [->|Hb].
  - exists (map fst segs). split; [reflexivity|]. intros t I. cbn [spec_split] in I. unfold spec_removed in I. apply in_map_iff in I. destruct I as (sg & <- & I).
    apply filter_In in I. apply in_map, I.
  - exists (spec_split b segs). split; [apply spec_split_concat; exact Hb|apply incl_refl].
Qed.

Lemma split_live ns ms segs b : live ns -> covers_text ms segs (n_normalized ns) ->
  exists pieces, n_split ns ms b = Ok pieces /\ map n_normalized pieces = spec_split b segs /\ Forall live pieces.
Proof.
  intros (A & S & T) C. destruct (C15_split ns ms segs b A C) as (pieces & csegs & E & Sh & M & F).
  destruct (C15_split_text ns ms segs b A C) as (pieces' & E' & M' & _). rewrite E in E'. injection E' as <-.
  exists pieces. split; [exact E|]. split; [exact M'|].
  assert (W : wf_seg (concat (map fst csegs))).
  { destruct (aligned_cal _ A) as (cal & S' & W). rewrite (shows_inj _ _ _ Sh S'). eapply wf_cal_seg; eauto. }
  apply (solid_shows _ _ Sh) in S. destruct (spec_split_parts b csegs) as (all & Ca & I). rewrite <- Ca in W, S.
  assert (FT : Forall text (map n_normalized pieces)).
  { rewrite M'. destruct (spec_split_parts b segs) as (all' & Ca' & I'). destruct C as [C _]. rewrite C, <- Ca' in T. apply text_concat in T.
    rewrite Forall_forall in T |- *. auto. }
  clear -F W S I FT. revert FT I. induction F as [|t p ts ps [P1 P2] _ IH]; intros FT I; [constructor|]. cbn [map] in FT. inversion FT as [|? ? T1 T2]; subst.
  constructor; [|apply IH; [exact T2|intros x Hx; apply I; right; exact Hx]]. split; [exact P2|]. split; [|exact T1].
  assert (It : In t all) by (apply I; left; reflexivity). eapply part_solid; [|..|exact P1].
  - eapply wf_seg_part; eauto.
  - rewrite Forall_concat, Forall_forall in S. auto.
Qed.
