(** The individual operations on characters carrying ranges; the invariant. *)
From Coq Require Import ZArith Sorting.Sorted.
From Verif Require Import Base ListFacts StrBytes NormModel NormSpec NormProofs NormProofs2.

(** ** tloop succeeds when the changes fit *)
Lemma tloop_total dest : forall prev rest q,
  changes_fit (length rest) dest -> exists new, tloop prev dest rest q = Ok new.
Proof.
  induction dest as [|[c ch] dest IH]; intros prev rest q Hf; cbn [tloop changes_fit] in *; [eauto|].
  destruct (0 <? ch)%Z.
  - destruct (IH prev rest q Hf) as [n ->]. cbn [bind]; eauto.
  - destruct Hf as [Hn Hf]. destruct rest as [|[c0 a0] rest]; [cbn in Hn; lia|]. cbn [app]. cbv zeta.
    cbn [firstn skipn].
    destruct (IH (last_al prev ((c0, a0) :: firstn (Z.to_nat (- ch)) rest)) (skipn (Z.to_nat (- ch)) rest) q) as [n ->].
    + rewrite skipn_length. cbn [length] in Hf.
      replace (length rest - Z.to_nat (- ch)) with (S (length rest) - 1 - Z.to_nat (- ch)) by lia. exact Hf.
    + cbn [bind]; eauto.
Qed.

Lemma tloop_in dest : forall prev rest q new,
  tloop prev dest rest q = Ok new ->
  forall a, In a (map snd new) -> a = prev \/ In a (map snd rest ++ map snd q).
Proof.
  induction dest as [|[c ch] dest IH]; intros prev rest q new H; cbn [tloop] in H.
  - injection H as <-; intros ? [].
  - destruct (0 <? ch)%Z.
    + destruct (tloop prev dest rest q) as [n| |] eqn:E; try discriminate. injection H as <-.
      cbn [map snd]. intros a [<- | Ha]; auto. eapply IH; eauto.
    + destruct (rest ++ q) as [|[c0 a0] tl0] eqn:Erq; [discriminate|]. cbv zeta in H.
      set (k := S (Z.to_nat (- ch))) in *.
      destruct (tloop _ dest _ q) as [n| |] eqn:E; try discriminate. injection H as <-.
      cbn [map snd]. intros a [<- | Ha]; [right; rewrite <- map_app, Erq; left; reflexivity|].
      destruct (IH _ _ _ _ E a Ha) as [-> | Hin].
      * destruct (last_al_In prev (firstn k rest)) as [E'|E']; [auto|].
        right; apply in_or_app; left; eapply in_snd_firstn; eauto.
      * right. apply in_app_or in Hin; apply in_or_app. destruct Hin as [Hin|Hin]; [left|right; exact Hin].
        eapply in_snd_skipn; eauto.
Qed.

Lemma wf_nil_all cal : wf_cal [] cal <-> Forall (fun a => a = (0, 0)) (map snd cal).
Proof.
  split.
  - intros [W _]. rewrite Forall_forall in *. intros [x y] H. destruct (W _ H) as (_ & H1 & H2).
    apply is_boundary_le in H1, H2. cbn in *. f_equal; lia.
  - intros H; split.
    + eapply Forall_impl; [|exact H]. intros a ->; apply okal_00.
    + induction H as [|a l -> H IH]; [constructor|]. apply sorted_cons; [exact IH|].
      rewrite Forall_forall in H. intros b Hb; rewrite (H b Hb); auto.
Qed.

(** Any successful [transform] keeps the invariant. *)
Lemma transform_wf orig cal sh dest k0 ns' :
  wf_cal orig cal -> transform (show orig cal sh) dest k0 = Ok ns' ->
  exists cal', ns' = show orig cal' sh /\ wf_cal orig cal'.
Proof.
  intros W H. destruct (transform_cases orig cal sh dest k0 W) as [[-> E]|[(Ho & -> & E)|(Ho & z & m & Ec & Z & Hne & E)]];
    rewrite E in H; clear E.
  - unfold trange in H. rewrite firstn_nil, skipn_nil in H. cbn [app] in H. rewrite last_al_nil in H.
    destruct (tloop (0, 0) dest [] cal) as [new| |] eqn:E; try discriminate. injection H as <-.
    exists (new ++ cal). split; [reflexivity|]. rewrite wf_nil_all in *. rewrite map_app, Forall_app. split; [|exact W].
    apply Forall_forall; intros a Ha. apply (tloop_in _ _ _ _ _ E) in Ha. cbn [map app] in Ha.
    destruct Ha as [Ha|Ha]; [exact Ha|]. rewrite Forall_forall in W; auto.
  - injection H as <-. eauto.
  - eapply trange_wf_nil; [|exact H]. rewrite <- Ec; exact W.
Qed.

Lemma show_len orig cal sh : n_len (show orig cal sh) = blen (ctext cal).
Proof. reflexivity. Qed.

Lemma prepend_cal orig c a r sh s :
  n_prepend (show orig ((c, a) :: r) sh) s
  = trange orig [] [(c, a)] r (first_replaces s ++ [(c, 1%Z)]) 0 sh.
Proof.
  unfold n_prepend; cbn [n_normalized show ctext map fst].
  apply (transform_range_cal orig [] [(c, a)] r sh). cbn [rn full_range ctext map blen fst app Nat.add]. rewrite Nat.add_0_r. reflexivity.
Qed.

Lemma rev_char_indices s : forall b c, rev (char_indices b (s ++ [c])) = (b + blen s, c) :: rev (char_indices b s).
Proof.
  induction s as [|x s IH]; intros b c; cbn [app char_indices rev blen].
  - rewrite Nat.add_0_r; reflexivity.
  - rewrite IH. cbn [app]. f_equal. f_equal. lia.
Qed.

Lemma append_cal orig r c a sh s :
  n_append (show orig (r ++ [(c, a)]) sh) s
  = trange orig r [(c, a)] [] ((c, 0%Z) :: map (fun c => (c, 1%Z)) s) 0 sh.
Proof.
  unfold n_append; cbn [n_normalized show]. rewrite ctext_app. cbn [ctext map fst].
  change (map fst r) with (ctext r). rewrite rev_char_indices; cbn [Nat.add].
  pose proof (transform_range_cal orig r [(c, a)] [] sh
                (RNormalized (Included (blen (ctext r))) Unbounded)
                ((c, 0%Z) :: map (fun c => (c, 1%Z)) s) 0) as T.
  rewrite app_nil_r in T. apply T.
  rewrite ctext_app. cbn [full_range]. rewrite blen_app. reflexivity.
Qed.

Lemma append_nil orig sh s :
  n_append (show orig [] sh) s = trange orig [] [] [] (map (fun c => (c, 1%Z)) s) 0 sh.
Proof. unfold n_append; cbn [n_normalized show ctext map char_indices rev].
       apply (transform_range_cal orig [] [] [] sh). reflexivity. Qed.

Lemma fit_positive s : forall n, changes_fit n (map (fun c : char => (c, 1%Z)) s).
Proof. induction s; intros; cbn; auto. Qed.
Lemma fit_app_positive d c n : changes_fit n d -> changes_fit n (d ++ [(c, 1%Z)]).
Proof.
  revert n; induction d as [|[x ch] d IH]; intros n H; cbn [app changes_fit] in *; [exact I|].
  destruct (0 <? ch)%Z; [auto|]. destruct H; split; auto.
Qed.
Lemma fit_first_replaces s n : 1 <= n -> changes_fit n (first_replaces s).
Proof. intros; destruct s; cbn [first_replaces changes_fit]; [exact I|]. split; [lia|]. apply fit_positive. Qed.

(** ** replace *)
(** Inserting after a position: all the inserted characters carry the range of
    the character before it. *)
Lemma tloop_positive s : forall prev rest q,
  tloop prev (map (fun c => (c, 1%Z)) s) rest q = Ok (map (fun c => (c, prev)) s).
Proof. induction s as [|c s IH]; intros; cbn; [reflexivity|]. rewrite IH; reflexivity. Qed.

Lemma transform_loop_positive p q s :
  transform_loop (cbytes (p ++ q)) (map (fun c => (c, 1%Z)) s) (blen (ctext p)) []
  = Ok (cbytes (map (fun c => (c, last_al (0, 0) p)) s)).
Proof.
  pose proof (transform_loop_cal (map (fun c => (c, 1%Z)) s) p [] q) as T. cbn [app ctext map] in T.
  rewrite T, tloop_positive. reflexivity.
Qed.

(** The result of [replace_loop] on any matches, when it succeeds: [done ++ rest]
    is the text, the loop resumes at the start of [rest]. *)
Lemma replace_loop_wf orig cal sh content ms : forall done rest t al,
  cal = done ++ rest -> wf_cal orig cal ->
  replace_loop (show orig cal sh) ms content (blen (ctext done)) = Ok (t, al) ->
  exists new, t = ctext new /\ al = cbytes new /\ Forall (okal orig) (map snd new) /\
              sorted_al (last_al (0, 0) done :: map snd new).
Proof.
  induction ms as [|[[st fn] f] ms IH]; intros done rest t al Ec W H; cbn [replace_loop] in H.
  - rewrite show_len in H. cbn [n_normalized n_alignments show] in H. rewrite Ec, ctext_app, cbytes_app in H.
    pose proof (str_get_app (ctext done) (ctext rest) []) as G. rewrite app_nil_r in G.
    rewrite blen_app in H. rewrite G in H. cbn [of_option bind] in H.
    pose proof (@slice_app unit _ (cbytes done) (cbytes rest) [] (blen (ctext done)) (length (cbytes done ++ cbytes rest))
                  ltac:(rewrite length_cbytes; reflexivity) ltac:(rewrite app_length; reflexivity)) as S.
    rewrite app_nil_r in S. rewrite S in H; cbn [bind] in H. injection H as <- <-.
    exists rest. destruct W as [W1 W2]. subst cal. rewrite map_app in *. apply Forall_app in W1.
    apply sorted_app_inv in W2; destruct W2 as (_ & W2 & W3).
    repeat split; try tauto. apply sorted_cons; [exact W2|]. intros b Hb.
    destruct (last_al_In (0, 0) done) as [E|E]; [rewrite <- E; unfold ale; cbn; lia|]. apply W3; auto.
  - destruct f; [|eapply IH; eauto].
    cbn [n_normalized n_alignments show] in H.
    destruct (str_get (ctext cal) st fn) as [matched|] eqn:Em; [|discriminate]. cbn [of_option bind] in H.
    destruct (str_get (ctext cal) (blen (ctext done)) st) as [before|] eqn:Eb; [|discriminate].
    cbn [of_option bind] in H.
    apply str_get_inv in Eb; destruct Eb as (x & y & E1 & E2 & E3).
    apply str_get_inv in Em; destruct Em as (x' & y' & E4 & E5 & E6).
    apply ctext_split3 in E1; destruct E1 as (p & b & q & Ec2 & <- & <- & <-).
    rewrite Ec in Ec2.
    assert (p = done /\ rest = b ++ q) as [-> ->].
    { assert (L : length p = length done).
      { rewrite <- !length_ctext. f_equal.
        destruct (blen_split_eq (ctext done) (ctext rest) (ctext p) (ctext (b ++ q))) as [Q _]; auto.
        rewrite <- !ctext_app, Ec2; reflexivity. }
      destruct (app_split_len _ _ _ _ Ec2 ltac:(lia)); auto. }
    clear Ec2 E2. subst cal.
    (* the match starts where [q] starts *)
    assert (exists m r, q = m ++ r /\ ctext m = matched) as (m & r & -> & Em).
    { destruct (blen_prefix_cmp (ctext (done ++ b)) (ctext q) x' (matched ++ y')) as (w & Ew & Ew2).
      - rewrite <- E4, <- ctext_app, <- app_assoc; reflexivity.
      - rewrite ctext_app, blen_app; lia.
      - assert (w = []).
        { apply blen_0. rewrite Ew in E5. rewrite ctext_app, !blen_app in E5. lia. }
        subst w. cbn [app] in Ew2. apply ctext_split in Ew2. destruct Ew2 as (m & r & -> & <- & _). eauto. }
    assert (Hst : st = blen (ctext (done ++ b))) by (rewrite ctext_app, blen_app; lia).
    assert (Hfn : fn = blen (ctext (done ++ b ++ m))) by (rewrite !ctext_app, !blen_app, Em; rewrite ctext_app, blen_app in Hst; lia).
    rewrite cbytes_app in H. rewrite (cbytes_app b) in H.
    rewrite (slice_app (cbytes done) (cbytes b)) in H
      by (rewrite !length_cbytes; rewrite ?Hst, ?ctext_app, ?blen_app; reflexivity).
    cbn [bind] in H. rewrite <- cbytes_app, <- cbytes_app in H.
    rewrite firstn_all, skipn_all in H.
    pose proof (transform_loop_positive (done ++ b ++ m) r content) as T.
    rewrite <- !app_assoc in T.
    replace (blen matched + st) with (blen (ctext (done ++ b ++ m))) in H
      by (rewrite !ctext_app, !blen_app, Em; rewrite Hst, ctext_app, blen_app; lia).
    rewrite T in H; clear T. cbn [bind] in H.
    destruct (replace_loop _ ms content fn) as [[t' al']| |] eqn:Er; try discriminate. cbn [bind] in H.
    injection H as <- <-. rewrite Hfn in Er.
    destruct (IH (done ++ b ++ m) r t' al') as (new & -> & -> & F & S); [rewrite <- !app_assoc; reflexivity|exact W|exact Er|].
    exists (b ++ map (fun c => (c, last_al (0, 0) (done ++ b ++ m))) content ++ new).
    rewrite !ctext_app, !cbytes_app.
    assert (Hc : ctext (map (fun c => (c, last_al (0, 0) (done ++ b ++ m))) content) = content)
      by (unfold ctext; rewrite map_map; cbn [fst]; apply map_id).
    rewrite Hc. split; [reflexivity|]. split; [reflexivity|].
    set (L := last_al (0, 0) (done ++ b ++ m)) in *.
    assert (HL : L = (0, 0) \/ In L (map snd (done ++ b ++ m))).
    { destruct (last_al_In (0, 0) (done ++ b ++ m)) as [E|E]; auto. }
    destruct W as [W1 W2].
    assert (HLok : okal orig L).
    { destruct HL as [-> | HL]; [apply okal_00|]. rewrite Forall_forall in W1; apply W1.
      rewrite !map_app in *. rewrite !in_app_iff in *. tauto. }
    assert (Hcs : forall a, In a (map snd (map (fun c : char => (c, L)) content)) -> a = L).
    { intros a Ha. apply in_map_iff in Ha; destruct Ha as (ca & <- & Ha). apply in_map_iff in Ha.
      destruct Ha as (? & <- & _); reflexivity. }
    rewrite !map_app in *. rewrite !Forall_app in W1. split.
    + rewrite !Forall_app. repeat split; try tauto.
      apply Forall_forall; intros a Ha; apply Hcs in Ha; subst; exact HLok.
    + assert (Sc : sorted_al (map snd (map (fun c : char => (c, L)) content) ++ map snd new)).
      { apply sorted_app; [| apply sorted_cons_inv in S; apply S|].
        - clear -Hcs. induction content as [|c s IHs]; [constructor|]. cbn [map snd] in *.
          apply sorted_cons; [apply IHs; intros; apply Hcs; right; assumption|].
          intros b0 Hb; rewrite (Hcs b0) by (right; exact Hb); auto.
        - intros a b' Ha Hb. apply Hcs in Ha; subst a. apply sorted_cons_inv in S; apply S; exact Hb. }
      assert (HbL : forall a, In a (map snd done ++ map snd b) -> ale a L).
      { intros a Ha. unfold L, last_al. rewrite !map_app. apply sorted_last.
        - rewrite !app_assoc. rewrite !app_assoc in W2. apply sorted_app_inv in W2; apply W2.
        - rewrite !in_app_iff in *. tauto. }
      assert (Hrest : forall a b', In a (map snd done ++ map snd b) ->
                 In b' (map snd (map (fun c : char => (c, L)) content) ++ map snd new) -> ale a b').
      { intros a b' Ha Hb. apply in_app_or in Hb. destruct Hb as [Hb|Hb].
        - apply Hcs in Hb; subst; auto.
        - eapply ale_trans; [apply HbL; exact Ha|]. apply sorted_cons_inv in S; apply S; exact Hb. }
      pose proof W2 as W2'. apply sorted_app_inv in W2; destruct W2 as (_ & W2 & W3).
      apply sorted_app_inv in W2; destruct W2 as (W2b & _ & _).
      apply sorted_cons.
      * apply sorted_app; [exact W2b|exact Sc|]. intros a b' Ha Hb. apply Hrest; [apply in_or_app; auto|exact Hb].
      * intros b' Hb. destruct (last_al_In (0, 0) done) as [E|E]; [rewrite <- E; unfold ale; cbn; lia|].
        apply in_app_or in Hb. destruct Hb as [Hb|Hb].
        -- apply W3; [exact E|]. rewrite !in_app_iff; auto.
        -- apply Hrest; [apply in_or_app; left; exact E|exact Hb].
Qed.

(** ** The invariant for every operation *)
Lemma op_wf orig cal sh op ns' :
  wf_cal orig cal -> in_contract (show orig cal sh) op -> apply_norm_op (show orig cal sh) op = Ok ns' ->
  exists orig' cal' sh', ns' = show orig' cal' sh' /\ wf_cal orig' cal'.
Proof.
  intros W C H. destruct op; cbn [apply_norm_op in_contract] in *.
  - (* transform_range *)
    assert (G : (exists p m q, cal = p ++ m ++ q /\
                match r with
                | RNormalized s e => full_range s e (blen (ctext (p ++ m ++ q)))
                   = (blen (ctext p), blen (ctext p) + blen (ctext m))
                | ROriginal _ _ => convert_offsets (show orig (p ++ m ++ q) sh) r
                   = Some (blen (ctext p), blen (ctext p) + blen (ctext m))
                end /\ n_get_range (show orig cal sh) r = Some (ctext m)) \/ ns' = show orig cal sh).
    { unfold transform_range in H. destruct r as [s e|s e].
      - destruct (convert_offsets (show orig cal sh) (ROriginal s e)) as [[a b]|] eqn:Ec.
        + cbn [n_normalized show] in H. destruct (str_get (ctext cal) a b) as [t|] eqn:Eg; [|discriminate].
          pose proof Eg as Eg'. apply str_get_inv in Eg'; destruct Eg' as (x & y & E & -> & ->).
          apply ctext_split3 in E; destruct E as (p & m & q & -> & <- & <- & <-). left.
          exists p, m, q. split; [reflexivity|]. split; [exact Ec|]. unfold n_get_range. rewrite Ec. exact Eg.
        + right. injection H as <-; reflexivity.
      - destruct (full_range s e (n_len (show orig cal sh))) as [a b] eqn:Ec.
        cbn [n_normalized show] in H. destruct (str_get (ctext cal) a b) as [t|] eqn:Eg; [|discriminate].
        pose proof Eg as Eg'. apply str_get_inv in Eg'; destruct Eg' as (x & y & E & -> & ->).
        apply ctext_split3 in E; destruct E as (p & m & q & -> & <- & <- & <-). left.
        exists p, m, q. split; [reflexivity|]. split; [exact Ec|]. unfold n_get_range. rewrite Ec. exact Eg. }
    destruct G as [(p & m & q & -> & Hr & Hg)| ->]; [|eauto].
    rewrite (transform_range_cal orig p m q sh r) in H by exact Hr.
    destruct (trange_wf _ _ _ _ _ _ _ _ W ltac:(specialize (C _ Hg); rewrite length_ctext in C; exact C) H) as (cal' & -> & W').
    eauto.
  - destruct (transform_wf _ _ _ _ _ _ W H) as (cal' & -> & W'); eauto.
  - unfold n_filter in H. destruct (filter_loop _ _ _ _ _) as [ts rs].
    destruct (transform_wf _ _ _ _ _ _ W H) as (cal' & -> & W'); eauto.
  - destruct cal as [|[c a] r].
    + cbn in H. injection H as <-. eauto.
    + rewrite prepend_cal in H.
      apply trange_wf in H; [|exact W|apply fit_app_positive, fit_first_replaces; cbn; lia].
      destruct H as (cal' & -> & W'); eauto.
  - destruct cal as [|x l] using rev_ind.
    + rewrite append_nil in H.
      apply trange_wf in H; [|exact W|apply fit_positive].
      destruct H as (cal' & -> & W'); eauto.
    + destruct x as [c a]. rewrite append_cal in H.
      apply trange_wf in H; [|rewrite app_nil_r; exact W|cbn; split; [lia|apply fit_positive]].
      destruct H as (cal' & -> & W'); eauto.
  - destruct (transform_wf _ _ _ _ _ _ W H) as (cal' & -> & W'); eauto.
  - destruct (transform_wf _ _ _ _ _ _ W H) as (cal' & -> & W'); eauto.
  - unfold n_replace in H.
    destruct (replace_loop _ _ content 0) as [[t al]| |] eqn:E; try discriminate. cbn [bind] in H. injection H as <-.
    destruct (replace_loop_wf orig cal sh content _ [] cal t al eq_refl W E) as (new & -> & -> & F & S).
    exists orig, new, sh. split; [reflexivity|]. split; [exact F|]. apply sorted_cons_inv in S; apply S.
  - destruct (transform_wf _ _ _ _ _ _ W H) as (cal' & -> & W'); eauto.
  - unfold n_lrstrip in H. cbv zeta in H. destruct (_ || _); [|injection H as <-; eauto].
    destruct (transform_wf _ _ _ _ _ _ W H) as (cal' & -> & W'); eauto.
  - pose proof (slice_wf orig cal sh r W) as S. destruct (n_slice _ r) as [x|e|]; [|injection H as <-; eauto|destruct S].
    injection H as <-. exact S.
Qed.

Lemma reachable_wf s ns : norm_reachable s ns ->
  exists orig cal sh, ns = show orig cal sh /\ wf_cal orig cal.
Proof.
  induction 1 as [|ns op ns' _ (orig & cal & sh & -> & W) C H].
  - exists s, (id_cal 0 s), 0. split; [apply nfrom_show|apply wf_id_cal].
  - eapply op_wf; eauto.
Qed.

Lemma reachable_aligned s ns : norm_reachable s ns -> aligned ns.
Proof. intros H; apply reachable_wf in H; destruct H as (o & c & k & -> & W); apply show_aligned; exact W. Qed.
