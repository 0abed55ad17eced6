(** Extraction of added tokens: matches, ranges, splits. *)
From Verif Require Import Base StrBytes ListFacts AMap EncodingModel NormModel NormSpec NormProofs NormProofs4 NormProofs6
  PreTokModel PreTokSpec PreTokProofs AddedModel AddedSpec AddedProofs AddedProofs2.

(** ** The matches *)
Lemma is_prefix_of_spec p : forall s, is_prefix_of p s = true <-> exists y, s = p ++ y.
Proof.
  induction p as [|a p IH]; intros s; cbn; [split; [eauto|reflexivity]|]. destruct s as [|b s].
  - split; [discriminate|]. intros (y & H). discriminate.
  - rewrite andb_true_iff, N.eqb_eq, IH. split.
    + intros [-> (y & ->)]. eauto.
    + intros (y & H). injection H as -> ->. eauto.
Qed.

Lemma longest_at_spec pats s :
  match longest_at pats s with
  | None => forall q, ~ occurs_at pats s [] q
  | Some (p, i) => p <> [] /\ In (p, i) pats /\ (exists y, s = p ++ y) /\
                   forall q, occurs_at pats s [] q -> length q <= length p
  end.
Proof.
  induction pats as [|[p i] pats IH]; cbn [longest_at].
  - intros q (_ & (j & []) & _).
  - assert (OC : forall q, occurs_at ((p, i) :: pats) s [] q ->
                 (q = p /\ q <> [] /\ exists y, s = p ++ y) \/ occurs_at pats s [] q).
    { intros q (N & (j & [H|H]) & y & E); cbn [app] in E.
      - injection H as -> ->. left. eauto.
      - right. split; [exact N|]. split; [exists j; exact H|exists y; exact E]. }
    destruct (negb (is_nil p) && is_prefix_of p s) eqn:E.
    + apply andb_true_iff in E. destruct E as [E1 E2]. apply is_prefix_of_spec in E2.
      assert (NP : p <> []) by (destruct p; [discriminate|discriminate]).
      destruct (longest_at pats s) as [[q j]|].
      * destruct IH as (I1 & I2 & I3 & I4). destruct (length q <=? length p) eqn:EL.
        -- split; [exact NP|]. split; [left; reflexivity|]. split; [exact E2|]. intros x Hx. apply OC in Hx.
           destruct Hx as [(-> & _)|Hx]; [lia|]. specialize (I4 _ Hx). lia.
        -- split; [exact I1|]. split; [right; exact I2|]. split; [exact I3|]. intros x Hx. apply OC in Hx.
           destruct Hx as [(-> & _)|Hx]; [lia|]. auto.
      * split; [exact NP|]. split; [left; reflexivity|]. split; [exact E2|]. intros x Hx. apply OC in Hx.
        destruct Hx as [(-> & _)|Hx]; [lia|]. exfalso. eapply IH; eauto.
    + assert (NO : forall q, occurs_at ((p, i) :: pats) s [] q -> occurs_at pats s [] q).
      { intros q Hq. apply OC in Hq. destruct Hq as [(-> & N & Hy)|Hq]; [|exact Hq]. exfalso.
        apply is_prefix_of_spec in Hy. rewrite Hy in E. destruct p; [congruence|discriminate]. }
      destruct (longest_at pats s) as [[q j]|].
      * destruct IH as (I1 & I2 & I3 & I4). split; [exact I1|]. split; [right; exact I2|]. split; [exact I3|]. auto.
      * intros q Hq. eapply IH. apply NO. exact Hq.
Qed.

Lemma leftmost_find_skip pats p : forall b rest,
  leftmost_find pats b (length p) (p ++ rest) = leftmost_find pats (b + blen p) 0 rest.
Proof.
  induction p as [|c p IH]; intros b rest; cbn [length app blen].
  - rewrite Nat.add_0_r. reflexivity.
  - cbn [leftmost_find]. rewrite IH. f_equal. lia.
Qed.

Lemma occurs_cons pats c s x q : occurs_at pats (c :: s) x q -> (x = [] /\ occurs_at pats (c :: s) [] q) \/ exists x', x = c :: x' /\ occurs_at pats s x' q.
Proof.
  intros H. destruct x as [|a x]; [left; auto|]. right. destruct H as (N & J & y & E). cbn in E. injection E as -> E.
  exists x. split; [reflexivity|]. split; [exact N|]. split; [exact J|]. exists y. exact E.
Qed.

Lemma ll_shift pats b c s ms : (forall q, ~ occurs_at pats (c :: s) [] q) ->
  leftmost_longest pats (b + len_utf8 c) s ms -> leftmost_longest pats b (c :: s) ms.
Proof.
  intros NO H. remember (b + len_utf8 c) as b' eqn:EB. destruct H as [b' s H|b' gap p i rest ms NP IN LM LO H].
  - apply ll_none. intros x q Hq. apply occurs_cons in Hq. destruct Hq as [[_ Hq]|(x' & _ & Hq)]; [eapply NO; eauto|eapply H; eauto].
  - subst b'. change (c :: gap ++ p ++ rest) with ((c :: gap) ++ p ++ rest) in *.
    replace (b + len_utf8 c + blen gap) with (b + blen (c :: gap)) in * by (cbn [blen]; lia).
    apply ll_match; [exact NP|exact IN| | |exact H].
    + intros x q Hq. change ((c :: gap) ++ p ++ rest) with (c :: (gap ++ p ++ rest)) in Hq. apply occurs_cons in Hq.
      destruct Hq as [[_ Hq]|(x' & -> & Hq)]; [exfalso; eapply NO; eauto|]. cbn. apply LM in Hq. lia.
    + intros q Hq. change ((c :: gap) ++ p ++ rest) with (c :: (gap ++ p ++ rest)) in Hq. apply occurs_cons in Hq.
      destruct Hq as [[X _]|(x' & X & Hq)]; [discriminate|]. injection X as <-. auto.
Qed.

Lemma leftmost_find_spec pats : forall n s b, length s <= n -> leftmost_longest pats b s (leftmost_find pats b 0 s).
Proof.
  induction n as [|n IH]; intros s b L.
  - destruct s; [|cbn in L; lia]. apply ll_none. intros x q (N & _ & y & E). destruct x; [|discriminate]. destruct q; [congruence|discriminate].
  - destruct s as [|c s]; [apply IH; cbn; lia|]. cbn [length] in L. cbn [leftmost_find].
    pose proof (longest_at_spec pats (c :: s)) as LS. destruct (longest_at pats (c :: s)) as [[p i]|].
    + destruct LS as (NP & IN & (y & E) & LO). destruct p as [|c' p]; [congruence|]. cbn [app] in E. injection E as <- ->.
      cbn [length]. rewrite Nat.sub_0_r || rewrite (Nat.sub_succ (length p) 0), Nat.sub_0_r.
      rewrite leftmost_find_skip.
      pose proof (ll_match pats b [] (c :: p) i y (leftmost_find pats (b + len_utf8 c + blen p) 0 y)) as M.
      cbn [app blen] in M. rewrite !Nat.add_0_r in M.
      replace (b + (len_utf8 c + blen p)) with (b + len_utf8 c + blen p) in * by lia. cbn [blen].
      replace (b + (len_utf8 c + blen p)) with (b + len_utf8 c + blen p) in * by lia.
      apply M; [discriminate|exact IN|intros; cbn; lia|exact LO|].
      apply IH. rewrite app_length in L. lia.
    + apply ll_shift; [exact LS|]. apply IH. lia.
Qed.

(** ** Byte positions *)
Lemma str_get_prefix p q : str_get (p ++ q) 0 (blen p) = Some p.
Proof. pose proof (str_get_app [] p q) as H. exact H. Qed.

Lemma str_get_suffix p q : str_get (p ++ q) (blen p) (blen (p ++ q)) = Some q.
Proof.
  pose proof (str_get_app p q []) as H. rewrite app_nil_r in H. rewrite blen_app. exact H.
Qed.

Lemma blen_rev s : blen (rev s) = blen s.
Proof. induction s as [|c s IH]; [reflexivity|]. cbn [rev blen]. rewrite blen_app, IH. cbn [blen]. lia. Qed.

Section strips.
  Context (is_space is_word : char -> bool).

  Lemma take_spaces_spec s : exists r, s = take_spaces is_space s ++ r /\
    Forall (fun c => is_space c = true) (take_spaces is_space s) /\ (forall c r', r = c :: r' -> is_space c = false).
  Proof.
    induction s as [|c s (r & E & F & M)]; cbn [take_spaces]; [exists []; repeat split; [constructor|discriminate]|].
    destruct (is_space c) eqn:EC.
    - exists r. split; [cbn; rewrite <- E; reflexivity|]. split; [constructor; assumption|exact M].
    - exists (c :: s). repeat split; [constructor|]. intros c' r' H. injection H as <- _. exact EC.
  Qed.

  Lemma ends_with_word_spec a b : ends_with_word is_word a = true <-> char_before is_word (a ++ b) (blen a).
  Proof.
    unfold ends_with_word. split.
    - destruct (rev a) as [|c r] eqn:E; [discriminate|]. intros H.
      assert (EA : a = rev r ++ [c]) by (rewrite <- (rev_involutive a), E; reflexivity).
      exists (rev r), c, b. split; [rewrite EA, <- app_assoc; reflexivity|]. split; [rewrite EA; reflexivity|exact H].
    - intros (x & c & y & E & L & H). assert (EQ : (x ++ [c]) ++ y = a ++ b) by (rewrite <- app_assoc; symmetry; exact E).
      destruct (blen_split_eq _ _ _ _ EQ L) as [E1 _]. rewrite <- E1, rev_app_distr. exact H.
  Qed.

  Lemma starts_with_word_spec a b : starts_with_word is_word b = true <-> char_after is_word (a ++ b) (blen a).
  Proof.
    unfold starts_with_word. split.
    - destruct b as [|c b]; [discriminate|]. intros H. exists a, c, b. auto.
    - intros (x & c & y & E & L & H). symmetry in E. destruct (blen_split_eq _ _ _ _ E L) as [_ E1]. rewrite <- E1. exact H.
  Qed.

  Lemma space_left_spec a : exists x w, a = x ++ w /\ Forall (fun c => is_space c = true) w /\
    space_leftmost_at_end is_space a = blen x /\ (forall b, ~ char_before is_space (a ++ b) (blen x)).
  Proof.
    destruct (take_spaces_spec (rev a)) as (r & E & F & M). exists (rev r), (rev (take_spaces is_space (rev a))).
    assert (EA : a = rev r ++ rev (take_spaces is_space (rev a))).
    { rewrite <- rev_app_distr, <- E, rev_involutive. reflexivity. }
    split; [exact EA|]. split; [apply Forall_rev; exact F|]. split.
    - unfold space_leftmost_at_end. rewrite EA at 1. rewrite blen_app, !blen_rev. lia.
    - intros b (x & c & y & E1 & L & H).
      assert (EQ : (x ++ [c]) ++ y = rev r ++ (rev (take_spaces is_space (rev a)) ++ b)).
      { rewrite <- app_assoc. cbn. rewrite <- E1, app_assoc, <- EA. reflexivity. }
      destruct (blen_split_eq _ _ _ _ EQ L) as [E2 _].
      assert (r = c :: rev x) by (rewrite <- (rev_involutive r), <- E2, rev_app_distr; reflexivity).
      apply M in H0. congruence.
  Qed.

  Lemma space_right_spec a b : exists w y, b = w ++ y /\ Forall (fun c => is_space c = true) w /\
    space_rightmost_at_start is_space b = blen w /\ ~ char_after is_space (a ++ b) (blen a + blen w).
  Proof.
    destruct (take_spaces_spec b) as (r & E & F & M). exists (take_spaces is_space b), r.
    split; [exact E|]. split; [exact F|]. split; [reflexivity|].
    intros (x & c & y & E1 & L & H).
    assert (EQ : x ++ c :: y = (a ++ take_spaces is_space b) ++ r) by (rewrite <- app_assoc, <- E; auto).
    assert (LL : blen x = blen (a ++ take_spaces is_space b)) by (rewrite blen_app; exact L).
    destruct (blen_split_eq _ _ _ _ EQ LL) as [_ E2]. symmetry in E2. apply M in E2. congruence.
  Qed.

  (** ** The loop *)
  (** Where the loop stands: what precedes [rest] is scanned; [from] is either
      behind, or ahead inside the whitespace that follows. *)
  Definition at_from (av : added_vocab) (done rest : str) (from : nat) : Prop :=
    (exists x y, done = x ++ y /\ from = blen x) \/
    (exists w y, rest = w ++ y /\ Forall (fun c => is_space c = true) w /\ from = blen done + blen w /\
                 (w <> [] -> exists i t, aget N.eqb i (av_map_r av) = Some t /\ at_rstrip t = true)).

  Lemma at_from_boundary av done rest from : at_from av done rest from -> exists x y, done ++ rest = x ++ y /\ from = blen x.
  Proof.
    intros [(x & y & -> & ->)|(w & y & -> & _ & -> & _)].
    - exists x, (y ++ rest). rewrite <- app_assoc. auto.
    - exists (done ++ w), y. rewrite <- app_assoc, blen_app. auto.
  Qed.

  Lemma at_from_match av pats done gap p i rest from :
    strip_safe is_space av pats -> In (p, i) pats -> p <> [] -> at_from av done (gap ++ p ++ rest) from ->
    exists x y, done ++ gap = x ++ y /\ from = blen x.
  Proof.
    intros S IN NP [(x & y & -> & ->)|(w & y & E & F & -> & W)].
    - exists x, (y ++ gap). rewrite <- app_assoc. auto.
    - destruct (Nat.le_gt_cases (blen w) (blen gap)) as [L|L].
      + symmetry in E. destruct (blen_prefix_cmp _ _ _ _ E L) as (k & -> & _).
        exists (done ++ w), k. rewrite <- app_assoc, blen_app. auto.
      + exfalso. destruct (blen_prefix_cmp _ _ _ _ E ltac:(lia)) as (k & -> & E2).
        assert (NK : k <> []) by (intros ->; rewrite app_nil_r in L; lia).
        destruct S as [S|S].
        * destruct W as (j & t & Ht & R); [intros W; apply app_eq_nil in W; tauto|]. apply S in Ht. congruence.
        * destruct p as [|c p]; [congruence|]. destruct k as [|c' k]; [congruence|]. cbn in E2. injection E2 as -> _.
          specialize (S _ _ _ _ IN eq_refl). rewrite Forall_app in F. destruct F as [_ F]. inversion F; subst. congruence.
  Qed.

  Definition find_result (av : added_vocab) (s : str) (from : nat) (ms : list (nat * nat * N)) (l : list (option N * (nat * nat))) : Prop :=
    tiling from (blen s) (map snd l) /\
    Forall (fun x => exists t, str_get s (fst (snd x)) (snd (snd x)) = Some t) l /\
    picks (reportable is_word av s) (reported_as is_space av s) ms (token_spans l) /\
    (forall a b, In (None, (a, b)) l -> a < b) /\
    (forall i a b t, In (Some i, (a, b)) l -> aget N.eqb i (av_map_r av) = Some t -> at_lstrip t = true ->
       char_before is_space s a -> a = from \/ exists j a', In (Some j, (a', a)) l).

  Lemma str_get_between p m q : str_get (p ++ m ++ q) (blen p) (blen (p ++ m)) = Some m.
  Proof. rewrite blen_app. apply str_get_app. Qed.

  Lemma find_loop_spec av pats : strip_safe is_space av pats -> known_patterns av pats ->
    forall ms done rest from, leftmost_longest pats (blen done) rest ms -> at_from av done rest from ->
    exists l, find_loop is_space is_word av (done ++ rest) ms from = Ok l /\ find_result av (done ++ rest) from ms l.
  Proof.
    intros SS KP. induction ms as [|[[st en] i] ms IH]; intros done rest from LL AF.
    - cbn [find_loop]. eexists. split; [reflexivity|]. destruct (at_from_boundary _ _ _ _ AF) as (x & y & E & ->). rewrite E.
      destruct (blen x =? blen (x ++ y)) eqn:EQ.
      + apply Nat.eqb_eq in EQ. unfold find_result. rewrite <- EQ. split; [constructor|]. split; [constructor|]. split; [constructor|]. split; [intros ? ? []|intros ? ? ? ? []].
      + apply Nat.eqb_neq in EQ. rewrite blen_app in EQ.
        split; [cbn [map snd]; apply tiling_cons; [rewrite blen_app; lia|constructor]|].
        split; [constructor; [exists y; cbn [fst snd]; apply str_get_suffix|constructor]|].
        split; [constructor|]. split.
        * intros a b [H|[]]. injection H as <- <-. rewrite blen_app. lia.
        * intros j a b t [H|[]]. discriminate.
    - inversion LL as [|b gap p i' rest' ms' NP IN LM LO LL' E1 E2 E3]. subst. clear LL.
      destruct (at_from_match _ _ _ _ _ _ _ _ SS IN NP AF) as (x & y & Ex & Ef).
      destruct (KP _ _ IN) as (t & Ht).
      set (s := done ++ gap ++ p ++ rest') in *.
      set (pre := done ++ gap) in *.
      assert (Es : s = pre ++ p ++ rest') by (unfold s, pre; rewrite <- app_assoc; reflexivity).
      assert (Es2 : s = (pre ++ p) ++ rest') by (rewrite Es, <- app_assoc; reflexivity).
      assert (Epre : blen done + blen gap = blen pre) by (unfold pre; rewrite blen_app; reflexivity).
      rewrite Epre in *.
      assert (Een : blen pre + blen p = blen (pre ++ p)) by (rewrite blen_app; reflexivity).
      rewrite Een in *.
      assert (G1 : str_get s 0 (blen pre) = Some pre) by (rewrite Es; apply str_get_prefix).
      assert (G2 : str_get s (blen (pre ++ p)) (blen s) = Some rest') by (rewrite Es2; apply str_get_suffix).
      assert (SKIP : ~ reportable is_word av s (blen pre, blen (pre ++ p), i) ->
        exists l, find_loop is_space is_word av s ms from = Ok l /\ find_result av s from ((blen pre, blen (pre ++ p), i) :: ms) l).
      { intros NR. destruct (IH (pre ++ p) rest' from LL') as (l & E & R1 & R2 & R3 & R4 & R5).
        - left. exists x, (y ++ p). rewrite Ex, <- app_assoc. auto.
        - rewrite <- Es2 in *. exists l. split; [exact E|]. split; [exact R1|]. split; [exact R2|]. split; [apply picks_skip; assumption|]. auto. }
      cbn [find_loop]. rewrite Ht. cbn [of_option bind].
      destruct (av_encode_special av && str_mem (at_content t) (av_special av)) eqn:ES.
      { apply SKIP. intros (t' & Ht' & NS & _). rewrite Ht in Ht'. injection Ht' as <-. apply NS.
        apply andb_true_iff in ES. destruct ES as [A B]. apply str_mem_In in B. auto. }
      assert (NSP : ~ (av_encode_special av = true /\ In (at_content t) (av_special av))).
      { intros [A B]. apply str_mem_In in B. rewrite A, B in ES. discriminate. }
      assert (BW : ends_with_word is_word pre = true <-> char_before is_word s (blen pre)) by (rewrite Es; apply ends_with_word_spec).
      assert (AW : starts_with_word is_word rest' = true <-> char_after is_word s (blen (pre ++ p))) by (rewrite Es2; apply starts_with_word_spec).
      unfold str_slice. rewrite G1, G2. cbn [of_option bind].
      assert (P0 : (blen pre =? 0) = true -> ends_with_word is_word pre = false).
      { intros H. apply Nat.eqb_eq, blen_0 in H. rewrite H. reflexivity. }
      assert (P1 : (blen (pre ++ p) =? blen s) = true -> starts_with_word is_word rest' = false).
      { intros H. apply Nat.eqb_eq in H. rewrite Es2, (blen_app (pre ++ p)) in H. assert (rest' = []) by (apply blen_0; lia). subst rest'. reflexivity. }
      set (sw := negb ((blen pre =? 0) || negb (ends_with_word is_word pre)) || negb ((blen (pre ++ p) =? blen s) || negb (starts_with_word is_word rest'))).
      assert (SW : sw = ends_with_word is_word pre || starts_with_word is_word rest').
      { unfold sw. destruct (blen pre =? 0), (blen (pre ++ p) =? blen s), (ends_with_word is_word pre), (starts_with_word is_word rest');
          cbn; try reflexivity; try (specialize (P0 eq_refl); discriminate); try (specialize (P1 eq_refl); discriminate). }
      replace (if at_single_word t then Ok sw else Ok false) with (@Ok unit _ (at_single_word t && sw)) by (destruct (at_single_word t); reflexivity).
      cbn [bind]. destruct (at_single_word t && sw) eqn:ESW.
      { apply SKIP. intros (t' & Ht' & _ & NS). rewrite Ht in Ht'. injection Ht' as <-. apply andb_true_iff in ESW. destruct ESW as [A B].
        destruct (NS A) as [N1 N2]. rewrite SW in B. apply orb_true_iff in B. destruct B as [B|B]; [apply N1, BW, B|apply N2, AW, B]. }
      assert (RP : reportable is_word av s (blen pre, blen (pre ++ p), i)).
      { exists t. split; [exact Ht|]. split; [exact NSP|]. intros A. rewrite A, SW in ESW. cbn in ESW. apply orb_false_iff in ESW. destruct ESW as [B C].
        split; intros H; [apply BW in H|apply AW in H]; congruence. }
      clear SKIP.
      (* the start *)
      destruct (space_left_spec pre) as (lx & lw & El & Fl & Nl & Ml).
      assert (ST : exists start sx sw', (if at_lstrip t then Ok (Nat.max (space_leftmost_at_end is_space pre) from) else Ok (blen pre)) = @Ok unit _ start /\
         pre = sx ++ sw' /\ start = blen sx /\ Forall (fun c => is_space c = true) sw' /\ (at_lstrip t = false -> sw' = []) /\
         from <= start /\ (exists k, sx = x ++ k) /\
         (at_lstrip t = true -> char_before is_space s start -> start = from)).
      { destruct (at_lstrip t).
        - rewrite Nl. destruct (Nat.le_gt_cases (blen lx) from) as [L|L].
          + exists from, x, y. assert (EQ : lx ++ lw = x ++ y) by congruence.
            rewrite Ef in L. destruct (blen_prefix_cmp _ _ _ _ EQ L) as (k & Ek & Ey).
            split; [f_equal; lia|]. split; [congruence|]. split; [exact Ef|]. split; [rewrite Ey in Fl; apply Forall_app in Fl; tauto|].
            split; [discriminate|]. split; [lia|]. split; [exists []; rewrite app_nil_r; reflexivity|]. auto.
          + exists (blen lx), lx, lw. split; [f_equal; lia|]. split; [exact El|]. split; [reflexivity|]. split; [exact Fl|]. split; [discriminate|].
            split; [lia|]. split.
            * assert (EQ : x ++ y = lx ++ lw) by congruence. destruct (blen_prefix_cmp _ _ _ _ EQ ltac:(lia)) as (k & Ek & _). exists k. exact Ek.
            * intros _ H. exfalso. apply (Ml (p ++ rest')). rewrite <- Es. exact H.
        - exists (blen pre), pre, []. split; [reflexivity|]. split; [rewrite app_nil_r; reflexivity|]. split; [reflexivity|]. split; [constructor|].
          split; [reflexivity|]. split; [rewrite Ex, blen_app; lia|]. split; [exists y; exact Ex|]. discriminate. }
      destruct ST as (start & sx & lsp & EST & Epx & Est & Flsp & NLS & LEF & (k & Ek) & MLS).
      rewrite EST. cbn [bind].
      (* the stop *)
      destruct (space_right_spec (pre ++ p) rest') as (rw & ry & Er & Fr & Nr & Mr).
      assert (SP : exists stop rsp ry', (if at_rstrip t then Ok (blen (pre ++ p) + space_rightmost_at_start is_space rest') else Ok (blen (pre ++ p))) = @Ok unit _ stop /\
         rest' = rsp ++ ry' /\ stop = blen (pre ++ p) + blen rsp /\ Forall (fun c => is_space c = true) rsp /\ (at_rstrip t = false -> rsp = []) /\
         (at_rstrip t = true -> ~ char_after is_space s stop)).
      { destruct (at_rstrip t).
        - exists (blen (pre ++ p) + blen rw), rw, ry. rewrite Nr. split; [reflexivity|]. split; [exact Er|]. split; [reflexivity|]. split; [exact Fr|].
          split; [discriminate|]. intros _. rewrite Es2. exact Mr.
        - exists (blen (pre ++ p)), [], rest'. split; [reflexivity|]. split; [reflexivity|]. split; [cbn; lia|]. split; [constructor|]. split; [reflexivity|discriminate]. }
      destruct SP as (stop & rsp & ry' & ESP & Erest & Estop & Frsp & NRS & MRS).
      rewrite ESP. cbn [bind].
      destruct (IH (pre ++ p) rest' stop LL') as (l & E & R1 & R2 & R3 & R4 & R5).
      { right. exists rsp, ry'. split; [exact Erest|]. split; [exact Frsp|]. split; [exact Estop|]. intros NR. exists i, t. split; [exact Ht|].
        destruct (at_rstrip t); [reflexivity|]. exfalso. apply NR. auto. }
      rewrite <- Es2 in *. rewrite E. cbn [bind]. eexists. split; [reflexivity|].
      assert (LSS : start <= stop) by (rewrite Estop, blen_app, Epx, blen_app, Est; lia).
      assert (Esx : s = sx ++ (lsp ++ p ++ rsp) ++ ry') by (rewrite Es, Epx, Erest, <- !app_assoc; reflexivity).
      assert (LST : stop = blen sx + blen (lsp ++ p ++ rsp)) by (rewrite Estop, Epx, !blen_app; lia).
      assert (TS : forall A (b : bool) (l : list A), (if b then l else []) = (if b then l else [])) by reflexivity. clear TS.
      split; [|split; [|split; [|split]]].
      + destruct (from <? start) eqn:EF; cbn [app map snd].
        * constructor; [lia|]. constructor; [exact LSS|exact R1].
        * assert (from = start) by lia. subst start. replace from with (blen sx) by lia. constructor; [lia|exact R1].
      + apply Forall_app. split.
        * destruct (from <? start); constructor; [|constructor]. exists k. cbn [fst snd]. subst from start. rewrite Esx, Ek, <- app_assoc.
          apply str_get_between.
        * constructor; [|exact R2]. exists (lsp ++ p ++ rsp). cbn [fst snd]. rewrite LST, Est, Esx. apply str_get_app.
      + unfold token_spans. rewrite flat_map_app. replace (flat_map _ (if from <? start then [(None, (from, start))] else [])) with (@nil (N * (nat * nat)))
          by (destruct (from <? start); reflexivity).
        cbn [app flat_map fst snd]. apply picks_take; [exact RP| |exact R3].
        split; [reflexivity|]. exists t, lsp, rsp. cbn [fst snd]. split; [exact Ht|]. split.
        { rewrite Es, Est, Epx, <- app_assoc. apply str_get_between. }
        split. { rewrite Estop, Es2, Erest. apply str_get_app. }
        split; [exact Flsp|]. split; [exact Frsp|]. split; [exact NLS|]. split; [exact NRS|exact MRS].
      + intros a b HI. apply in_app_or in HI. destruct HI as [HI|[HI|HI]]; [|discriminate|eauto].
        destruct (from <? start) eqn:EF; [|destruct HI]. destruct HI as [HI|[]]. injection HI as <- <-. lia.
      + intros j a b t' HI Ht' HL CB. apply in_app_or in HI. destruct HI as [HI|[HI|HI]].
        * destruct (from <? start); [|destruct HI]. destruct HI as [HI|[]]. discriminate.
        * injection HI as <- <- <-. rewrite Ht in Ht'. injection Ht' as <-. left. auto.
        * destruct (R5 _ _ _ _ HI Ht' HL CB) as [->|(j' & a' & HJ)].
          -- right. exists i, start. apply in_or_app. right. left. reflexivity.
          -- right. exists j', a'. apply in_or_app. right. right. exact HJ.
  Qed.

  Theorem find_matches_spec av pats s : s <> [] -> strip_safe is_space av pats -> known_patterns av pats ->
    exists ms l, leftmost_longest pats 0 s ms /\ find_matches is_space is_word av s (Some pats) = Ok l /\
                 extraction is_space is_word av s ms l.
  Proof.
    intros NE SS KP. exists (leftmost_find pats 0 0 s).
    pose proof (leftmost_find_spec pats (length s) s 0 (le_n _)) as LL.
    destruct (find_loop_spec av pats SS KP (leftmost_find pats 0 0 s) [] s 0 LL) as (l & E & R1 & R2 & R3 & R4 & R5).
    - left. exists [], []. auto.
    - exists l. split; [exact LL|]. split; [unfold find_matches; destruct s; [congruence|exact E]|].
      split; [exact R1|]. split; [exact R2|]. split; [exact R3|]. split; [exact R4|].
      intros i a b t H Ht HL CB. destruct (R5 _ _ _ _ H Ht HL CB) as [->|HJ]; [|exact HJ].
      exfalso. destruct CB as (x & c & y & _ & L & _). rewrite blen_app in L. cbn [blen] in L. pose proof (len_utf8_pos c). lia.
  Qed.
End strips.

(** ** The splits *)
Lemma token_spans_in l i o : In (Some i, o) l <-> In (i, o) (token_spans l).
Proof.
  unfold token_spans. rewrite in_flat_map. split.
  - intros H. exists (Some i, o). split; [exact H|left; reflexivity].
  - intros ([[j|] o'] & H & E); cbn in E; [|destruct E]. destruct E as [E|[]]. injection E as -> ->. exact H.
Qed.

Lemma picks_in {A B} (P : A -> Prop) (R : A -> B -> Prop) la lb : picks P R la lb ->
  forall b, In b lb -> exists a, In a la /\ P a /\ R a b.
Proof.
  intros H. induction H as [|a b la lb HP HR H IH|a la lb HP H IH]; intros x Hx; [destruct Hx| |].
  - destruct Hx as [<-|Hx]; [exists a; cbn; auto|]. destruct (IH _ Hx) as (a' & X & Y). exists a'. cbn. auto.
  - destruct (IH _ Hx) as (a' & X & Y). exists a'. cbn. auto.
Qed.

Lemma ll_nonempty pats b s ms : leftmost_longest pats b s ms -> forall st en i, In (st, en, i) ms -> st < en /\ exists p, In (p, i) pats.
Proof.
  intros H. induction H as [|b gap p i rest ms NP IN LM LO H IH]; intros st en j HI; [destruct HI|]. destruct HI as [HI|HI]; [|eauto].
  injection HI as <- <- <-. split; [|eauto]. destruct p as [|c p]; [congruence|]. cbn [blen]. pose proof (len_utf8_pos c). lia.
Qed.

Lemma str_get_le s a b t : str_get s a b = Some t -> a <= b.
Proof. intros H. apply str_get_inv in H. destruct H as (p & q & _ & -> & ->). lia. Qed.

Lemma extraction_nonempty sp wd av pats b0 s ms l : leftmost_longest pats b0 s ms -> extraction sp wd av s ms l ->
  forall x, In x l -> fst (snd x) < snd (snd x).
Proof.
  intros LL (_ & _ & PK & NN & _) [[i|] [a b]] HX; cbn [fst snd]; [|eauto].
  apply token_spans_in in HX. destruct (picks_in _ _ _ _ PK _ HX) as ([[st en] j] & H1 & _ & H3).
  destruct (ll_nonempty _ _ _ _ LL _ _ _ H1) as [H4 _].
  destruct H3 as (_ & t & lt & rt & _ & G1 & G2 & _). cbn [fst snd] in *. apply str_get_le in G1, G2. lia.
Qed.

Definition tiles_text (s : str) (l : list (nat * nat)) : Prop :=
  tiling 0 (blen s) l /\ Forall (fun o => exists t, str_get s (fst o) (snd o) = Some t) l.

Lemma tiling_located cal : forall a e l, tiling a e l -> e = blen (ctext cal) ->
  Forall (fun o => exists t, str_get (ctext cal) (fst o) (snd o) = Some t) l ->
  forall p q, cal = p ++ q -> a = blen (ctext p) ->
  exists segs, q = concat segs /\ Forall2 (fun o t => NormProofs4.located csize cal o t /\ str_get (ctext cal) (fst o) (snd o) = Some (ctext t)) l segs.
Proof.
  intros a e l H. induction H as [a|a b c l LE H IH]; intros EE F p q EC EA.
  - exists []. split; [|constructor]. rewrite EC, ctext_app, blen_app in EE.
    assert (ctext q = []) by (apply blen_0; lia). destruct q; [reflexivity|discriminate].
  - inversion F as [|? ? (t & G) F2]; subst. cbn [fst snd] in G.
    destruct (str_get_inv _ _ _ _ G) as (p1 & q1 & E1 & E2 & E3).
    rewrite ctext_app in E1. destruct (blen_split_eq _ _ _ _ E1 E2) as [<- E4].
    unfold ctext in E4. apply map_eq_app in E4. destruct E4 as (qa & qb & -> & Ea & Eb). change (ctext qa = t) in Ea.
    destruct (IH eq_refl F2 (p ++ qa) qb) as (segs & Es & FS).
    + rewrite <- app_assoc. reflexivity.
    + rewrite E3, ctext_app, blen_app, Ea. reflexivity.
    + exists (qa :: segs). split; [cbn; rewrite Es; reflexivity|]. constructor; [|exact FS]. split.
      * exists p, qb. cbn [fst snd]. rewrite !csize_text. split; [reflexivity|]. split; [reflexivity|].
        rewrite E3, Ea. reflexivity.
      * rewrite Ea. exact G.
Qed.

Definition token_split_of (ns : nstring) (x : option N * (nat * nat)) (sp : split) : Prop :=
  str_get (n_normalized ns) (fst (snd x)) (snd (snd x)) = Some (n_normalized (sp_norm sp)) /\
  sp_tokens sp = match fst x with
                 | Some i => Some [mkTok i (n_normalized (sp_norm sp)) (0, blen (n_normalized (sp_norm sp)))]
                 | None => None
                 end.

Lemma split_spans_cut ns l : aligned ns -> tiles_text (n_normalized ns) (map snd l) ->
  exists sps, map_res (token_split ns) l = Ok sps /\ Forall2 (token_split_of ns) l sps /\
              cut_into (fun _ => False) ns (map sp_norm sps).
Proof.
  intros A [T F]. apply aligned_show in A. destruct A as (orig & cal & sh & -> & W). cbn [n_normalized show] in *.
  destruct (tiling_located cal _ _ _ T eq_refl F [] cal eq_refl eq_refl) as (segs & Es & FS).
  assert (G : exists sps, map_res (token_split (show orig cal sh)) l = Ok sps /\ Forall2 (token_split_of (show orig cal sh)) l sps /\
     Forall2 (fun t ns' => part_of (show orig cal sh) t ns' /\ aligned ns') segs (map sp_norm sps)).
  { clear T F Es. remember (map snd l) as os eqn:Eo. revert l Eo.
    induction FS as [|o t os segs [H1 H2] FS IH]; intros l Eo; destruct l as [|[id o'] l]; try discriminate.
    - exists []. repeat split; constructor.
    - cbn [map snd] in Eo. injection Eo as <- Eo. destruct (IH l Eo) as (sps & E & F1 & F2).
      destruct (slice_located orig cal sh o t W H1) as (ns' & E1 & P & AL).
      cbn [map_res]. unfold token_split at 1. cbn [fst snd]. rewrite E1. cbn [bind]. rewrite E. cbn [bind]. eexists. split; [reflexivity|].
      assert (TX : n_normalized ns' = ctext t).
      { destruct t as [|[c a] t]; [exact (proj1 P)|]. destruct P as (u & v & _ & _ & _ & _ & [Sh _]). rewrite Sh.
        unfold ctext. rewrite map_map. apply map_ext. intros []. reflexivity. }
      split; [constructor; [|exact F1]|cbn [map sp_norm]; constructor; [auto|exact F2]].
      split; cbn [sp_norm sp_tokens fst snd n_normalized show]; [rewrite TX; exact H2|reflexivity]. }
  destruct G as (sps & E & F1 & F2). exists sps. split; [exact E|]. split; [exact F1|].
  exists (map (fun t => (t, true)) segs). rewrite map_map. cbn [fst]. rewrite map_id.
  split; [rewrite <- Es; split; reflexivity|]. split.
  - intros t Ht. apply in_map_iff in Ht. destruct Ht as (x & Hx & _). discriminate.
  - replace (kept_parts (map _ segs)) with segs; [exact F2|].
    unfold kept_parts. clear. induction segs as [|t l IH]; [reflexivity|]. cbn. f_equal. exact IH.
Qed.

(** What [find_matches] returns for any text and state. *)
Definition safe_trie (is_space : char -> bool) (av : added_vocab) (trie : option (list (str * N))) : Prop :=
  forall pats, trie = Some pats -> strip_safe is_space av pats /\ known_patterns av pats.

Lemma find_matches_tiles sp wd av s trie : safe_trie sp av trie ->
  exists l, find_matches sp wd av s trie = Ok l /\ tiles_text s (map snd l) /\
            (s <> [] -> forall x, In x l -> fst (snd x) < snd (snd x)) /\
            (s = [] -> l = [(None, (0, 0))]).
Proof.
  intros S. destruct s as [|c s].
  - exists [(None, (0, 0))]. split; [reflexivity|]. split; [|split; [congruence|auto]]. split.
    + cbn. constructor; [lia|constructor].
    + constructor; [exists []; reflexivity|constructor].
  - destruct trie as [pats|].
    + destruct (S pats eq_refl) as [SS KP].
      destruct (find_matches_spec sp wd av pats (c :: s) ltac:(discriminate) SS KP) as (ms & l & LL & E & X).
      exists l. split; [exact E|]. split; [|split; [intros _; eapply extraction_nonempty; eauto|discriminate]].
      destruct X as (X1 & X2 & _). split; [exact X1|]. rewrite Forall_map. exact X2.
    + exists [(None, (0, blen (c :: s)))]. split; [reflexivity|]. split; [|split; [|discriminate]].
      * split; [cbn [map snd]; apply tiling_cons; [lia|constructor]|]. constructor; [|constructor]. exists (c :: s). apply str_get_full.
      * intros _ x [<-|[]]. cbn [fst snd blen]. pose proof (len_utf8_pos c). lia.
Qed.

Lemma split_with_indices_cuts sp wd av trie ns : aligned ns -> safe_trie sp av trie ->
  exists l sps, find_matches sp wd av (n_normalized ns) trie = Ok l /\
    split_with_indices sp wd av trie ns = Ok sps /\ Forall2 (token_split_of ns) l sps /\
    cut_into (fun _ => False) ns (map sp_norm sps).
Proof.
  intros A S. destruct (find_matches_tiles sp wd av (n_normalized ns) trie S) as (l & E & T & _).
  destruct (split_spans_cut ns l A T) as (sps & E2 & F & C). exists l, sps. split; [exact E|].
  unfold split_with_indices. rewrite E. cbn [bind]. auto.
Qed.
