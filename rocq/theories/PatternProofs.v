(** Proofs about patterns. *)
From Verif Require Import Base ListFacts StrBytes NormModel NormSpec NormProofs NormProofs5 PatternModel PatternSpec.

Lemma sum_blen t : list_sum (map len_utf8 t) = blen t.
Proof. induction t as [|c t IH]; cbn; [reflexivity|]. unfold list_sum in IH; rewrite IH; reflexivity. Qed.

Lemma seg_offsets_cons b t f r : seg_offsets len_utf8 b ((t, f) :: r) = ((b, b + blen t), f) :: seg_offsets len_utf8 (b + blen t) r.
Proof. cbn [seg_offsets]. rewrite sum_blen. reflexivity. Qed.

(** ** Predicates *)
Fixpoint pred_segs (p : char -> bool) (g s : str) : list (str * bool) :=
  match s with
  | [] => match g with [] => [] | _ => [(g, false)] end
  | c :: s' =>
      if p c then (match g with [] => [] | _ => [(g, false)] end) ++ ([c], true) :: pred_segs p [] s'
      else pred_segs p (g ++ [c]) s'
  end.

Lemma pred_loop_segs p s : forall g lo,
  pred_loop p (char_indices (lo + blen g) s) lo (lo + blen g) = seg_offsets len_utf8 lo (pred_segs p g s).
Proof.
  induction s as [|c s IH]; intros g lo; cbn [char_indices pred_loop pred_segs].
  - destruct g as [|c g]; [cbn [blen]; rewrite Nat.add_0_r, Nat.ltb_irrefl; reflexivity|].
    pose proof (len_utf8_pos c). replace (_ <? _) with true by (cbn [blen]; lia).
    rewrite seg_offsets_cons; reflexivity.
  - destruct (p c).
    + pose proof (IH [] (lo + blen g + len_utf8 c)) as I. cbn [blen] in I; rewrite Nat.add_0_r in I. rewrite I. clear I.
      destruct g as [|c0 g].
      * cbn [blen app]; rewrite Nat.add_0_r, Nat.ltb_irrefl. cbn [app]. rewrite seg_offsets_cons; cbn [blen].
        rewrite Nat.add_0_r. reflexivity.
      * pose proof (len_utf8_pos c0). replace (lo <? lo + blen (c0 :: g)) with true by (cbn [blen]; lia).
        cbn [app]. rewrite !seg_offsets_cons. cbn [blen]. rewrite Nat.add_0_r. reflexivity.
    + rewrite <- IH, blen_app. cbn [blen]. rewrite Nat.add_0_r, Nat.add_assoc. reflexivity.
Qed.

Lemma pred_segs_concat p s : forall g, concat (map fst (pred_segs p g s)) = g ++ s.
Proof.
  induction s as [|c s IH]; intros g; cbn [pred_segs].
  - destruct g; cbn; rewrite ?app_nil_r; reflexivity.
  - destruct (p c).
    + destruct g; cbn [app map fst concat]; rewrite IH; cbn; rewrite <- ?app_assoc; reflexivity.
    + rewrite IH, <- app_assoc; reflexivity.
Qed.

Lemma pred_segs_flags p s : forall g, Forall (fun c => p c = false) g ->
  char_flags (pred_segs p g s) = map (fun c => (c, p c)) (g ++ s).
Proof.
  induction s as [|c s IH]; intros g H; cbn [pred_segs].
  - rewrite app_nil_r. assert (map (fun c : N => (c, p c)) g = map (fun c => (c, false)) g) as ->.
    { apply map_ext_in. intros c Hc. rewrite Forall_forall in H. rewrite (H c Hc); reflexivity. }
    destruct g; cbn; rewrite ?app_nil_r; reflexivity.
  - destruct (p c) eqn:E.
    + assert (map (fun c : N => (c, p c)) g = map (fun c => (c, false)) g) as Eg.
      { apply map_ext_in. intros c' Hc. rewrite Forall_forall in H. rewrite (H c' Hc); reflexivity. }
      rewrite map_app, Eg. unfold char_flags in *. rewrite flat_map_app. cbn [flat_map map snd fst].
      rewrite IH by constructor. rewrite E. destruct g; cbn; rewrite ?app_nil_r; reflexivity.
    + rewrite IH; [rewrite <- app_assoc; reflexivity|]. apply Forall_app; split; auto.
Qed.

Lemma pred_segs_shape p s : forall g,
  Forall (fun sg : str * bool => if snd sg then length (fst sg) = 1 else fst sg <> []) (pred_segs p g s) /\
  gaps_maximal (pred_segs p g s).
Proof.
  induction s as [|c s IH]; intros g; cbn [pred_segs].
  - destruct g; split; cbn; repeat constructor; discriminate.
  - destruct (p c).
    + destruct (IH []) as [H1 H2]. destruct g as [|c0 g]; cbn [app].
      * split; [constructor; [reflexivity|exact H1]|exact H2].
      * split; [|exact H2]. constructor; [discriminate|]. constructor; [reflexivity|exact H1].
    + apply IH.
Qed.

(** ** Regex engines *)
Lemma regex_loop_segs s ms : forall pre prev,
  prev = blen pre -> (exists rest, s = pre ++ rest) -> engine_matches s prev ms ->
  exists segs, regex_loop (blen s) prev ms = seg_offsets len_utf8 prev segs /\
               s = pre ++ concat (map fst segs) /\
               map fst (filter snd (seg_offsets len_utf8 prev segs)) = ms /\
               Forall (fun sg : str * bool => snd sg = false -> fst sg <> []) segs /\ gaps_maximal segs.
Proof.
  induction ms as [|[a b] ms IH]; intros pre prev -> [rest ->] H; cbn [regex_loop engine_matches] in *.
  - destruct (blen pre =? blen (pre ++ rest)) eqn:E.
    + exists []. rewrite blen_app in E. assert (blen rest = 0) as E0 by lia. apply blen_0 in E0; subst.
      cbn. repeat split; constructor.
    + exists [(rest, false)]. rewrite seg_offsets_cons, blen_app. cbn [concat map fst seg_offsets filter snd].
      rewrite app_nil_r. repeat split; auto. repeat constructor. cbn. intros _ ->. rewrite app_nil_r, Nat.eqb_refl in E; discriminate.
  - destruct H as (H1 & H2 & B1 & B2 & H). apply is_boundary_spec in B1, B2.
    destruct B1 as (x & y & Ex & ->). destruct B2 as (x' & y' & Ex' & ->).
    destruct (blen_prefix_cmp pre rest x y ltac:(congruence) ltac:(lia)) as (g & -> & Eg).
    destruct (blen_prefix_cmp (pre ++ g) y x' y' ltac:(congruence) ltac:(lia)) as (m & -> & Em).
    destruct (IH ((pre ++ g) ++ m) _ eq_refl) as (segs & Es & Ec & Ef & Eg' & Em'); [exists y'; exact Ex'|exact H|].
    rewrite !blen_app in *.
    exists ((match g with [] => [] | _ => [(g, false)] end) ++ (m, true) :: segs).
    rewrite Es. destruct g as [|c0 g].
    + cbn [blen app] in *. rewrite !Nat.add_0_r in *. rewrite Nat.eqb_refl. cbn [app]. rewrite !seg_offsets_cons.
      cbn [map fst concat filter snd]. rewrite Ef. rewrite app_nil_r in *. repeat split; auto.
      * rewrite Ec at 1. rewrite <- !app_assoc. reflexivity.
      * constructor; [discriminate|exact Eg'].
    + pose proof (len_utf8_pos c0). replace (blen pre =? blen pre + blen (c0 :: g)) with false by (cbn [blen]; lia).
      cbn [app]. rewrite !seg_offsets_cons. cbn [map fst concat filter snd]. rewrite Ef. repeat split; auto.
      * rewrite Ec at 1. rewrite <- !app_assoc. reflexivity.
      * repeat (constructor; [discriminate|]). exact Eg'.
Qed.

(** ** Literals *)
Lemma is_prefix_spec p s : is_prefix p s = true <-> exists w, s = p ++ w.
Proof.
  revert s; induction p as [|c p IH]; intros s; cbn [is_prefix app].
  - split; eauto.
  - destruct s as [|d s]; [split; [discriminate|intros [w E]; discriminate]|].
    rewrite andb_true_iff, N.eqb_eq, IH. split.
    + intros [-> [w ->]]; eauto.
    + intros [w E]; injection E as -> ->; eauto.
Qed.

Fixpoint lit_segs (pat : str) (g : str) (skip : nat) (s : str) : list (str * bool) :=
  match s with
  | [] => match g with [] => [] | _ => [(g, false)] end
  | c :: s' =>
      match skip with
      | S k => lit_segs pat g k s'
      | 0 => if is_prefix pat s
             then (match g with [] => [] | _ => [(g, false)] end) ++ (pat, true) :: lit_segs pat [] (length pat - 1) s'
             else lit_segs pat (g ++ [c]) 0 s'
      end
  end.

Lemma lit_skip pat m : forall b s, literal_scan pat b (length m) (m ++ s) = literal_scan pat (b + blen m) 0 s.
Proof.
  induction m as [|c m IH]; intros b s; cbn [length app blen literal_scan]; [rewrite Nat.add_0_r; reflexivity|].
  rewrite IH. f_equal. lia.
Qed.
Lemma lit_segs_skip pat m : forall s, lit_segs pat [] (length m) (m ++ s) = lit_segs pat [] 0 s.
Proof. induction m as [|c m IH]; intros s; cbn [length app lit_segs]; auto. Qed.

Lemma regex_literal pat : pat <> [] -> forall n s g lo, length s <= n ->
  regex_loop (lo + blen g + blen s) lo (literal_scan pat (lo + blen g) 0 s)
    = seg_offsets len_utf8 lo (lit_segs pat g 0 s) /\
  concat (map fst (lit_segs pat g 0 s)) = g ++ s /\
  ((forall u v w, g = u ++ v -> v <> [] -> v ++ s <> pat ++ w) -> leftmost_literal pat (lit_segs pat g 0 s)) /\
  Forall (fun sg : str * bool => fst sg <> []) (lit_segs pat g 0 s) /\ gaps_maximal (lit_segs pat g 0 s).
Proof.
  intros Hp. destruct pat as [|p0 pat']; [congruence|]. clear Hp. set (pat := p0 :: pat') in *.
  induction n as [|n IH]; intros s g lo Hn.
  - destruct s; [|cbn in Hn; lia]. cbn [literal_scan regex_loop lit_segs blen]. rewrite Nat.add_0_r.
    destruct g as [|c g].
    + cbn. rewrite Nat.add_0_r, Nat.eqb_refl. repeat split; auto.
    + pose proof (len_utf8_pos c). replace (_ =? _) with false by (cbn [blen]; lia). rewrite seg_offsets_cons.
      cbn [map fst concat gaps_maximal leftmost_literal]. rewrite app_nil_r. repeat split; auto.
      repeat constructor; discriminate.
  - destruct s as [|c s].
    + apply IH; cbn; lia.
    + cbn [literal_scan lit_segs]. destruct (is_prefix pat (c :: s)) eqn:E.
      * apply is_prefix_spec in E; destruct E as [w E]. unfold pat in E; cbn [app] in E. injection E as -> ->.
        replace (length pat - 1) with (length pat') by (unfold pat; cbn [length]; lia).
        rewrite lit_skip, lit_segs_skip.
        assert (Hw : length w <= n) by (cbn [length] in Hn; rewrite app_length in Hn; lia).
        destruct (IH w [] (lo + blen g + blen pat) Hw) as (I1 & I2 & I3 & I4 & I5).
        specialize (I3 ltac:(intros u v w' E Hv; destruct u, v; cbn in E; congruence)).
        cbn [blen app] in I1, I2. rewrite Nat.add_0_r in I1.
        replace (lo + blen g + len_utf8 p0 + blen pat') with (lo + blen g + blen pat) by (unfold pat; cbn [blen]; lia).
        cbn [regex_loop]. cbn [blen]. rewrite blen_app.
        replace (lo + blen g + (len_utf8 p0 + (blen pat' + blen w))) with (lo + blen g + blen pat + blen w) by (unfold pat; cbn [blen]; lia).
        rewrite I1. destruct g as [|c0 g].
        -- cbn [blen app]. rewrite Nat.add_0_r, Nat.eqb_refl. cbn [app]. rewrite seg_offsets_cons.
           cbn [map fst concat gaps_maximal leftmost_literal]. rewrite I2. repeat split; auto.
           constructor; [discriminate|exact I4].
        -- pose proof (len_utf8_pos c0). replace (lo =? lo + blen (c0 :: g)) with false by (cbn [blen]; lia). cbn [app].
           rewrite !seg_offsets_cons. cbn [map fst concat gaps_maximal leftmost_literal]. rewrite I2.
           repeat split; auto.
           constructor; [discriminate|]. constructor; [discriminate|exact I4].
      * destruct (IH s (g ++ [c]) lo ltac:(cbn [length] in Hn; lia)) as (I1 & I2 & I3 & I4 & I5).
        rewrite blen_app in I1. cbn [blen] in I1. rewrite Nat.add_0_r in I1.
        cbn [blen]. rewrite Nat.add_assoc in I1. rewrite Nat.add_assoc. repeat split; auto.
        -- rewrite I2, <- app_assoc; reflexivity.
        -- intros H. apply I3. intros u v w Eg Hv Ew.
           destruct v as [|x v] using rev_ind; [congruence|]. clear IHv. rewrite app_assoc in Eg.
           apply app_inj_tail in Eg; destruct Eg as [-> <-].
           destruct v as [|d v].
           ++ cbn [app] in Ew. assert (is_prefix pat (c :: s) = true) by (apply is_prefix_spec; eauto). congruence.
           ++ apply (H u (d :: v) w eq_refl); [discriminate|]. rewrite <- Ew, <- app_assoc. reflexivity.
Qed.

(** ** Invert *)
Lemma invert_segs segs : forall b,
  invert_matches (seg_offsets len_utf8 b segs) = seg_offsets len_utf8 b (map (fun s => (fst s, negb (snd s))) segs).
Proof.
  induction segs as [|[t f] segs IH]; intros b; [reflexivity|]. cbn [map fst snd]. rewrite !seg_offsets_cons.
  cbn [invert_matches map fst snd]. f_equal. apply IH.
Qed.
