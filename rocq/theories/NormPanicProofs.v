(** C17: when operations on normalised texts panic. *)
From Coq Require Import ZArith Sorting.Sorted.
From Verif Require Import Base ListFacts StrBytes NormModel NormSpec NormProofs NormProofs2 NormProofs3 NormProofs4 NormProofs5 NormPanicSpec.

Lemma tloop_panic dest prev rest : tloop prev dest rest [] = Panic <-> ~ changes_fit (length rest) dest.
Proof.
  split.
  - intros H F. destruct (tloop_total dest prev rest [] F) as [n E]. congruence.
  - intros F. destruct (tloop prev dest rest []) as [n|e|] eqn:E; [|exfalso; exact (tloop_no_err _ _ _ _ _ E)|reflexivity].
    exfalso. apply F. exact (tloop_fit _ _ _ _ E).
Qed.
Lemma tloop_empty dest q : q <> [] -> forall prev, tloop prev dest [] q <> Panic.
Proof.
  intros Q. induction dest as [|[c ch] dest IH]; intros prev; cbn [tloop]; [discriminate|].
  destruct (0 <? ch)%Z.
  - specialize (IH prev). destruct (tloop prev dest [] q); cbn [bind]; congruence.
  - cbn [app]. destruct q as [|[c0 a] q]; [contradiction|]. cbv zeta. rewrite firstn_nil, skipn_nil.
    specialize (IH (last_al prev [])). destruct (tloop _ dest [] _); cbn [bind]; congruence.
Qed.

(** The part in front. *)
Definition narrow (ca : char * (nat * nat)) : Prop := fst (snd ca) = snd (snd ca).
Record fronted (cal z m : cals) : Prop := {
  fr_split : cal = z ++ m;
  fr_front : Forall narrow z;
  fr_rest : match m with [] => True | ca :: _ => fst (snd ca) < snd (snd ca) end }.

Lemma fronted_unique cal z m z' m' : fronted cal z m -> fronted cal z' m' -> z = z' /\ m = m'.
Proof.
  intros [E F R] [E' F' R']. assert (X : z ++ m = z' ++ m') by congruence. clear E E'. revert z' X F'.
  induction z as [|x z IH]; intros z' X F'.
  - destruct z' as [|y z']; [split; [reflexivity|exact X]|]. exfalso. cbn [app] in X. subst m. apply Forall_inv in F'. unfold narrow in F'. lia.
  - destruct z' as [|y z'].
    + exfalso. cbn [app] in X. subst m'. apply Forall_inv in F. unfold narrow in F. lia.
    + cbn [app] in X. assert (x = y) by congruence. subst y. assert (X' : z ++ m = z' ++ m') by congruence.
      destruct (IH (Forall_inv_tail F) z' X' (Forall_inv_tail F')) as [-> ->]. split; reflexivity.
Qed.

Lemma zones_fronted orig cal z m : wf_cal orig cal -> cal = z ++ m -> zones 0 (blen orig) z m [] -> fronted cal z m.
Proof.
  intros [W _] E (_ & Z & H & _). constructor; [exact E| |].
  - eapply Forall_impl; [|exact Z]. intros ca X. unfold wide in X. unfold narrow. cbn [Nat.leb andb] in X. apply negb_false_iff in X. apply Nat.eqb_eq. exact X.
  - destruct m as [|ca m]; [exact I|]. unfold wide in H. cbn [Nat.leb andb] in H. apply negb_true_iff in H. apply Nat.eqb_neq in H.
    rewrite Forall_forall in W. destruct (W (snd ca)) as (L & _); [|lia]. rewrite E, map_app. apply in_or_app. right. left. reflexivity.
Qed.

Lemma front_fronted orig cal sh n : front (show orig cal sh) n <-> exists z m, fronted cal z m /\ length z = n.
Proof.
  split.
  - intros (cal' & [T A] & L & F & R). cbn [show n_normalized n_alignments] in T, A.
    assert (cal' = cal) as ->.
    { clear -T A. revert cal T A. induction cal' as [|[c a] l IH]; intros [|[c' a'] cal] T A; try discriminate; [reflexivity|].
      rewrite !ctext_cons in T. rewrite !cbytes_cons in A. cbn [fst snd] in *. assert (c' = c) by congruence. subst c'.
      assert (T' : ctext cal = ctext l) by congruence.
      destruct (app_split_len _ _ _ _ A ltac:(rewrite !repeat_length; reflexivity)) as [A1 A2].
      pose proof (len_utf8_pos c). destruct (len_utf8 c); [lia|]. cbn [repeat] in A1. assert (a' = a) by congruence. subst a'. f_equal. apply IH; assumption. }
    exists (firstn n cal), (skipn n cal). split; [|apply firstn_length_le; exact L]. constructor.
    + symmetry. apply firstn_skipn.
    + apply Forall_forall. exact F.
    + destruct (skipn n cal) as [|ca m] eqn:E; [exact I|]. apply R. rewrite <- (firstn_skipn n cal), nth_error_app2; rewrite firstn_length_le by exact L; [|lia].
      rewrite Nat.sub_diag, E. reflexivity.
  - intros (z & m & [E F R] & <-). exists cal. split; [split; reflexivity|]. subst cal. split; [rewrite app_length; lia|]. split.
    + intros ca H. rewrite firstn_app, firstn_all, Nat.sub_diag in H. cbn [firstn] in H. rewrite app_nil_r in H. rewrite Forall_forall in F. exact (F _ H).
    + intros ca H. rewrite nth_error_app2 in H by lia. rewrite Nat.sub_diag in H. destruct m as [|x m]; [discriminate|]. cbn [nth_error] in H. assert (x = ca) by congruence. subst x. exact R.
Qed.

Lemma fronted_exists cal : (forall ca, In ca cal -> fst (snd ca) <= snd (snd ca)) -> exists z m, fronted cal z m.
Proof.
  induction cal as [|ca cal IH]; intros H; [exists [], []; constructor; [reflexivity|constructor|exact I]|].
  destruct (Nat.eq_dec (fst (snd ca)) (snd (snd ca))) as [E|E].
  - destruct IH as (z & m & [A B C]); [intros; apply H; right; assumption|]. exists (ca :: z), m. constructor; [cbn [app]; congruence|constructor; assumption|exact C].
  - exists [], (ca :: cal). constructor; [reflexivity|constructor|]. pose proof (H ca (or_introl eq_refl)). lia.
Qed.

(** ** The whole-range transform *)
Lemma transform_panic orig cal sh dest i z m : wf_cal orig cal -> fronted cal z m ->
  (transform (show orig cal sh) dest i = Panic <->
   (orig = [] /\ cal = [] /\ ~ changes_fit 0 dest) \/ (orig <> [] /\ cal <> [] /\ ~ changes_fit (length m - i) dest)).
Proof.
  intros W F. destruct (transform_cases orig cal sh dest i W) as [[-> E]|[(Ho & -> & E)|(Ho & z' & m' & Ec & Z & Hne & E)]]; rewrite E.
  - unfold trange. rewrite firstn_nil, skipn_nil. cbn [app]. split.
    + intros H. left. split; [reflexivity|]. destruct cal as [|ca cal].
      * split; [reflexivity|]. destruct (tloop _ dest [] []) eqn:T; try discriminate. apply tloop_panic in T. exact T.
      * exfalso. pose proof (tloop_empty dest (ca :: cal) ltac:(discriminate) (last_al (0, 0) [])) as X. destruct (tloop _ dest [] _); try discriminate. contradiction.
    + intros [(_ & -> & X)|(X & _)]; [|contradiction X; reflexivity]. pose proof (proj2 (tloop_panic dest (last_al (0, 0) []) []) X) as ->. reflexivity.
  - split; [discriminate|]. intros [(-> & _)|(_ & X & _)]; [contradiction Ho; reflexivity|contradiction X; reflexivity].
  - pose proof (zones_fronted _ _ _ _ W Ec Z) as F'. destruct (fronted_unique _ _ _ _ _ F F') as [-> ->]. unfold trange.
    pose proof (tloop_panic dest (last_al (0, 0) (z' ++ firstn i m')) (skipn i m')) as T. rewrite skipn_length in T. split.
    + intros H. right. split; [exact Ho|]. split; [exact Hne|]. apply T. destruct (tloop _ dest _ []); congruence.
    + intros [(-> & _)|(_ & _ & X)]; [contradiction Ho; reflexivity|]. apply T in X. rewrite X. reflexivity.
Qed.

Lemma transform_text orig cal sh dest i z m ns' : wf_cal orig cal -> fronted cal z m ->
  transform (show orig cal sh) dest i = Ok ns' -> n_normalized ns' = written (show orig cal sh) (length z) (map fst dest).
Proof.
  intros W F. unfold written. cbn [show n_original n_normalized].
  destruct (transform_cases orig cal sh dest i W) as [[-> E]|[(Ho & -> & E)|(Ho & z' & m' & Ec & Z & Hne & E)]]; rewrite E.
  - unfold trange. rewrite firstn_nil, skipn_nil. cbn [app]. destruct (tloop _ dest [] cal) as [new| |] eqn:T; try discriminate.
    intros H. injection H as <-. cbn [show n_normalized]. rewrite ctext_app, (tloop_text _ _ _ _ _ T). reflexivity.
  - intros H. injection H as <-. destruct orig; [contradiction Ho; reflexivity|]. reflexivity.
  - pose proof (zones_fronted _ _ _ _ W Ec Z) as F'. destruct (fronted_unique _ _ _ _ _ F F') as [-> ->]. unfold trange.
    destruct (tloop _ dest _ []) as [new| |] eqn:T; try discriminate. intros H. injection H as <-.
    cbn [show n_normalized]. rewrite app_nil_r, ctext_app, (tloop_text _ _ _ _ _ T).
    destruct orig as [|o os]; [contradiction Ho; reflexivity|]. destruct cal as [|ca cal]; [contradiction Hne; reflexivity|]. rewrite ctext_cons.
    rewrite <- ctext_cons, Ec, ctext_app, firstn_app, length_ctext, Nat.sub_diag, firstn_all2 by (rewrite length_ctext; lia). cbn [firstn]. rewrite app_nil_r. reflexivity.
Qed.

(** ** What fits *)
Lemma fit_map (f : char -> char) s : forall n, changes_fit n (map (fun c => (f c, 0%Z)) s) <-> length s <= n.
Proof.
  induction s as [|c s IH]; intros n; cbn [map changes_fit length]; [split; [lia|auto]|].
  change (0 <? 0)%Z with false. cbn [Z.opp Z.to_nat]. rewrite IH. lia.
Qed.
Lemma fit_positives s d : forall n, changes_fit n (map (fun c : char => (c, 1%Z)) s ++ d) <-> changes_fit n d.
Proof. induction s as [|c s IH]; intros n; [reflexivity|]. cbn [map app changes_fit]. change (0 <? 1)%Z with true. apply IH. Qed.
Lemma fit_case (f : char -> str) s : forall n, changes_fit n (flat_map (fun c => first_replaces (f c)) s) <-> length (filter (fun c => negb (is_nil (f c))) s) <= n.
Proof.
  induction s as [|c s IH]; intros n; cbn [flat_map filter]; [split; [cbn; lia|intros; exact I]|].
  destruct (f c) as [|x l]; cbn [first_replaces is_nil negb]; [apply IH|]. cbn [app changes_fit length]. change (0 <? 0)%Z with false.
  cbn [Z.opp Z.to_nat]. rewrite fit_positives, IH. lia.
Qed.

(** Filtering: no character that is kept is at or after position [n]. *)
Lemma fit_filter_some keep s : forall removed lc rs n ts rs', filter_loop keep s removed (Some lc) rs = (ts, rs') ->
  rs' = rs /\ (changes_fit n ts <-> 1 <= n /\ Forall (fun c => keep c = false) (skipn (n - 1 - removed) s)).
Proof.
  induction s as [|c s IH]; intros removed lc rs n ts rs' H; cbn [filter_loop] in H.
  - injection H as <- <-. split; [reflexivity|]. rewrite skipn_nil. cbn [changes_fit].
    replace (0 <? - Z.of_nat removed)%Z with false by lia. split; intros [A _]; split; try assumption; constructor.
  - destruct (keep c) eqn:K.
    + destruct (filter_loop keep s 0 (Some c) rs) as [ts0 rs0] eqn:E. injection H as <- <-.
      destruct (IH 0 c rs (n - 1 - Z.to_nat (- - Z.of_nat removed)) ts0 rs0 E) as [-> X]. split; [reflexivity|]. cbn [changes_fit].
      replace (0 <? - Z.of_nat removed)%Z with false by lia. rewrite X. replace (Z.to_nat (- - Z.of_nat removed)) with removed by lia.
      split.
      * intros (A & B & C). split; [exact A|]. destruct (n - 1 - removed) as [|j] eqn:J; [lia|]. cbn [skipn]. replace (S j - 1 - 0) with j in C by lia. exact C.
      * intros (A & C). split; [exact A|]. destruct (n - 1 - removed) as [|j] eqn:J; cbn [skipn] in C.
        -- apply Forall_inv in C. congruence.
        -- split; [lia|]. replace (S j - 1 - 0) with j by lia. exact C.
    + destruct (IH (removed + 1) lc rs n ts rs' H) as [-> X]. split; [reflexivity|]. rewrite X. split; intros (A & C); (split; [exact A|]).
      * destruct (n - 1 - removed) as [|j] eqn:J; cbn [skipn].
        -- replace (n - 1 - (removed + 1)) with 0 in C by lia. cbn [skipn] in C. constructor; assumption.
        -- replace (n - 1 - (removed + 1)) with j in C by lia. exact C.
      * destruct (n - 1 - removed) as [|j] eqn:J; cbn [skipn] in C.
        -- replace (n - 1 - (removed + 1)) with 0 by lia. cbn [skipn]. exact (Forall_inv_tail C).
        -- replace (n - 1 - (removed + 1)) with j by lia. exact C.
Qed.
Lemma fit_filter_none keep s : forall removed n ts rs', filter_loop keep s removed None 0 = (ts, rs') ->
  changes_fit (n - rs') ts <-> Forall (fun c => keep c = false) (skipn (n - removed) s).
Proof.
  induction s as [|c s IH]; intros removed n ts rs' H; cbn [filter_loop] in H.
  - injection H as <- <-. rewrite skipn_nil. split; intros _; [constructor|exact I].
  - destruct (keep c) eqn:K.
    + destruct (fit_filter_some keep s 0 c removed (n - removed) ts rs' H) as [-> X]. rewrite X. split.
      * intros (A & C). destruct (n - removed) as [|j] eqn:J; [lia|]. cbn [skipn]. replace (S j - 1 - 0) with j in C by lia. exact C.
      * intros C. destruct (n - removed) as [|j] eqn:J; cbn [skipn] in C.
        -- apply Forall_inv in C. congruence.
        -- split; [lia|]. replace (S j - 1 - 0) with j by lia. exact C.
    + rewrite (IH (removed + 1) n ts rs' H). destruct (n - removed) as [|j] eqn:J; cbn [skipn].
      * replace (n - (removed + 1)) with 0 by lia. cbn [skipn]. split; intros C; [constructor; assumption|exact (Forall_inv_tail C)].
      * replace (n - (removed + 1)) with j by lia. reflexivity.
Qed.
Lemma filter_loop_text keep s : forall removed lc rs, map fst (fst (filter_loop keep s removed lc rs)) = match lc with Some c => [c] | None => [] end ++ filter keep s.
Proof.
  induction s as [|c s IH]; intros removed lc rs; cbn [filter_loop filter].
  - destruct lc; reflexivity.
  - destruct (keep c).
    + destruct lc as [l|]; [|apply IH]. specialize (IH 0 (Some c) rs). destruct (filter_loop keep s 0 (Some c) rs) as [ts r]. cbn [fst map app] in *. rewrite IH. reflexivity.
    + apply IH.
Qed.

(** Stripping. *)
Lemma fit_strip_mid L T count len m r : forall i n, L <= i -> i + length m = count - T -> count <= len ->
  changes_fit n (strip_loop i L T count len (m ++ r)) <-> length m <= n.
Proof.
  induction m as [|c m IH]; intros i n H1 H2 H3; cbn [length app] in *.
  - rewrite strip_loop_end by lia. split; [lia|intros; exact I].
  - cbn [strip_loop]. replace (i <? L) with false by lia. replace (count - T <=? i) with false by lia. cbn [orb].
    destruct (i =? len - T - 1) eqn:E.
    + assert (m = []) by (destruct m; [reflexivity|cbn in H2; lia]). subst m. cbn [length app]. rewrite strip_loop_end by lia.
      cbn [changes_fit]. replace (0 <? - Z.of_nat T)%Z with false by lia. split; [intros [A _]; lia|intros A; split; [lia|exact I]].
    + cbn [changes_fit]. change (0 <? 0)%Z with false. cbn [Z.opp Z.to_nat]. rewrite IH by lia. lia.
Qed.
Lemma strip_text_mid L T count len m r : forall i, L <= i -> i + length m = count - T -> map fst (strip_loop i L T count len (m ++ r)) = m.
Proof.
  induction m as [|c m IH]; intros i H1 H2; cbn [length app] in *; [rewrite strip_loop_end by lia; reflexivity|].
  cbn [strip_loop]. replace (i <? L) with false by lia. replace (count - T <=? i) with false by lia. cbn [orb].
  destruct (i =? len - T - 1); cbn [map fst]; rewrite IH by lia; reflexivity.
Qed.
Lemma twc_app w a x : Forall (fun c => w c = true) a -> match x with [] => True | c :: _ => w c = false end -> take_while_count w (a ++ x) = length a.
Proof.
  intros A X. induction A as [|c a E _ IH]; cbn [app take_while_count length].
  - destruct x as [|c x]; [reflexivity|]. cbn [take_while_count]. rewrite X. reflexivity.
  - rewrite E, IH. reflexivity.
Qed.
(** The parts are what the code counts. *)
Lemma strips_counts w l r t a m b : strips w l r t a m b -> m <> [] ->
  (if l then take_while_count w t else 0) = length a /\ (if r then take_while_count w (rev t) else 0) = length b.
Proof.
  intros [E A B NL NR H1 H2] M. split.
  - destruct l; [|rewrite (NL eq_refl); reflexivity]. rewrite E. apply twc_app; [exact A|]. destruct m as [|c m]; [contradiction M; reflexivity|]. cbn [app]. exact (H1 eq_refl _ _ eq_refl).
  - destruct r; [|rewrite (NR eq_refl); reflexivity]. rewrite E, app_assoc, rev_app_distr, <- (rev_length b). apply twc_app; [apply Forall_rev; exact B|].
    rewrite rev_app_distr. destruct (exists_last M) as (x & c & ->). rewrite rev_app_distr. cbn [rev app]. exact (H2 eq_refl _ _ eq_refl).
Qed.
Lemma twc_parts w t : exists a x, t = a ++ x /\ length a = take_while_count w t /\ Forall (fun c => w c = true) a /\ match x with [] => True | c :: _ => w c = false end.
Proof.
  induction t as [|c t (a & x & -> & L & A & X)]; [exists [], []; repeat split; constructor|]. cbn [take_while_count]. destruct (w c) eqn:E.
  - exists (c :: a), x. split; [reflexivity|]. split; [cbn [length]; lia|]. split; [constructor; assumption|exact X].
  - exists [], (c :: a ++ x). split; [reflexivity|]. split; [reflexivity|]. split; [constructor|exact E].
Qed.
(** Either something is left between the runs, or everything is stripped. *)
Lemma strips_exist w (l r : bool) (t : str) : let L := if l then take_while_count w t else 0 in let T := if r then take_while_count w (rev t) else 0 in
  (exists a m b, strips w l r t a m b /\ m <> []) \/ length t <= L + T.
Proof.
  intros L T. destruct (Nat.le_gt_cases (length t) (L + T)) as [H|H]; [right; exact H|left].
  assert (HA : exists a x, t = a ++ x /\ length a = L /\ Forall (fun c => w c = true) a /\ (l = true -> match x with [] => True | c :: _ => w c = false end) /\ (l = false -> a = [])).
  { unfold L. destruct l.
    - destruct (twc_parts w t) as (a & x & E & A & B & C). exists a, x. split; [exact E|]. split; [exact A|]. split; [exact B|]. split; [intros _; exact C|discriminate].
    - exists [], t. split; [reflexivity|]. split; [reflexivity|]. split; [constructor|]. split; [discriminate|reflexivity]. }
  assert (HB : exists y b, t = y ++ b /\ length b = T /\ Forall (fun c => w c = true) b /\ (r = true -> match rev y with [] => True | c :: _ => w c = false end) /\ (r = false -> b = [])).
  { unfold T. destruct r.
    - destruct (twc_parts w (rev t)) as (a & x & E & A & B & C). exists (rev x), (rev a). split; [rewrite <- rev_app_distr, <- E, rev_involutive; reflexivity|].
      split; [rewrite rev_length; exact A|]. split; [apply Forall_rev; exact B|]. split; [intros _; rewrite rev_involutive; exact C|discriminate].
    - exists t, []. split; [rewrite app_nil_r; reflexivity|]. split; [reflexivity|]. split; [constructor|]. split; [discriminate|reflexivity]. }
  destruct HA as (a & x & E & LA & FA & HA & NA), HB as (y & b & E' & LB & FB & HB & NB).
  assert (LT : length t = length y + length b) by (rewrite E', app_length; reflexivity).
  destruct (app_prefix_cmp a x y b ltac:(congruence) ltac:(lia)) as (m & -> & ->). rewrite app_length in LT.
  exists a, m, b. assert (M : m <> []) by (intros ->; cbn [length] in LT; lia). split; [|exact M]. constructor; try assumption.
  - intros EL c z ->. exact (HA EL).
  - intros ER z c ->. specialize (HB ER). rewrite app_assoc, rev_app_distr in HB. exact HB.
Qed.

(** ** Every operation *)
Lemma text_nil (cal : cals) : ctext cal = [] <-> cal = [].
Proof. destruct cal; split; try reflexivity; discriminate. Qed.
Lemma get_range_parts (cal : cals) t a b : str_get (ctext cal) a b = Some t -> exists p x q, cal = p ++ x ++ q /\ t = ctext x /\ a = blen (ctext p) /\ b = blen (ctext p) + blen (ctext x).
Proof.
  intros H. apply str_get_inv in H. destruct H as (x & y & E & -> & ->). apply ctext_split3 in E. destruct E as (p & k & q & -> & <- & <- & <-). exists p, k, q. auto.
Qed.
Section exact.
  Context (orig : str) (cal z m : cals) (sh : nat) (W : wf_cal orig cal) (F : fronted cal z m).
  Let ns := show orig cal sh.

  Lemma fronted_length : length (ctext cal) = length z + length m.
  Proof using F. rewrite length_ctext, (fr_split _ _ _ F), app_length. reflexivity. Qed.
  Lemma fronted_back : length (ctext cal) - length z = length m.
  Proof using F. rewrite fronted_length. lia. Qed.

  Lemma panic_map f : n_map ns f = Panic <-> orig <> [] /\ 0 < length z.
  Proof using W F.
    unfold n_map, ns. rewrite (transform_panic orig cal sh _ _ z m W F). cbn [ns show n_normalized]. rewrite !fit_map, fronted_length.
    assert (CN : cal = [] -> length z + length m = 0) by (intros E; rewrite <- fronted_length, E; reflexivity).
    split.
    - intros [(_ & E & X)|(O & E & X)]; [specialize (CN E); lia|]. split; [exact O|]. lia.
    - intros (O & L). right. split; [exact O|]. split; [intros E; specialize (CN E); lia|]. lia.
  Qed.
  Lemma panic_case f : n_case ns f = Panic <-> orig <> [] /\ length m < length (filter (fun c => negb (is_nil (f c))) (ctext cal)).
  Proof using W F.
    unfold n_case, ns. rewrite (transform_panic orig cal sh _ _ z m W F). cbn [ns show n_normalized]. rewrite !fit_case. split.
    - intros [(_ & E & X)|(O & E & X)]; [|split; [exact O|lia]]. exfalso. rewrite E in X. cbn in X. lia.
    - intros (O & L). right. split; [exact O|]. split; [intros E; rewrite E in L; cbn in L; lia|lia].
  Qed.
  Lemma not_all (keep : char -> bool) l : ~ Forall (fun c => keep c = false) l <-> exists c, In c l /\ keep c = true.
  Proof using.
    split.
    - intros H. induction l as [|c l IH]; [contradiction H; constructor|]. destruct (keep c) eqn:K; [exists c; split; [left; reflexivity|exact K]|].
      destruct IH as (x & X & Y); [intros X; apply H; constructor; assumption|]. exists x. split; [right; exact X|exact Y].
    - intros (c & I & K) H. rewrite Forall_forall in H. specialize (H c I). congruence.
  Qed.
  Lemma panic_filter keep : n_filter ns keep = Panic <-> orig <> [] /\ exists c, In c (skipn (length m) (ctext cal)) /\ keep c = true.
  Proof using W F.
    unfold n_filter. destruct (filter_loop keep (n_normalized ns) 0 None 0) as [ts rs] eqn:E. cbn [ns show n_normalized] in E.
    unfold ns. rewrite (transform_panic orig cal sh _ _ z m W F), (fit_filter_none _ _ _ (length m) _ _ E), Nat.sub_0_r, not_all. split.
    - intros [(_ & X & Y)|(O & _ & X)]; [|split; assumption]. exfalso. rewrite X in E. cbn in E. injection E as <- <-. apply Y. exact I.
    - intros (O & X). right. split; [exact O|]. split; [|exact X]. intros Y. destruct X as (c & X & _). rewrite Y in X. cbn in X. rewrite skipn_nil in X. exact X.
  Qed.
  Lemma strip_parts_loop w l r a x b : strips w l r (ctext cal) a x b -> x <> [] ->
    n_lrstrip ns w l r = (if (0 <? length a) || (0 <? length b) then transform ns (strip_loop (length a) (length a) (length b) (length (ctext cal)) (n_len ns) (x ++ b)) (length a) else Ok ns).
  Proof using.
    intros S X. destruct (strips_counts _ _ _ _ _ _ _ S X) as [C1 C2]. unfold n_lrstrip. cbv zeta. cbn [ns show n_normalized] in *. rewrite C1, C2.
    destruct (_ || _); [|reflexivity]. f_equal. rewrite (st_text _ _ _ _ _ _ _ S) at 2. rewrite (strip_loop_skip _ _ _ _ a 0) by lia. reflexivity.
  Qed.
  Lemma panic_strip w l r : n_lrstrip ns w l r = Panic <->
    orig <> [] /\ exists a x b, strips w l r (ctext cal) a x b /\ (a <> [] \/ b <> []) /\ x <> [] /\ length b < length z.
  Proof using W F.
    assert (NE : forall a : str, a <> [] <-> 0 < length a) by (intros [|]; cbn [length]; split; intros; try lia; try discriminate; congruence).
    assert (ONE : forall a x b, strips w l r (ctext cal) a x b -> x <> [] ->
      (n_lrstrip ns w l r = Panic <-> orig <> [] /\ (a <> [] \/ b <> []) /\ length b < length z)).
    { intros a x b S X. rewrite (strip_parts_loop _ _ _ _ _ _ S X). pose proof (st_text _ _ _ _ _ _ _ S) as E.
      assert (L : length z + length m = length a + length x + length b) by (rewrite <- fronted_length, E, !app_length; lia).
      assert (LX : 0 < length x) by (apply NE; exact X).
      rewrite !NE. destruct ((0 <? length a) || (0 <? length b)) eqn:G; [|split; [discriminate|intros (_ & A & _); lia]].
      unfold ns. rewrite (transform_panic orig cal sh _ _ z m W F). rewrite show_len, !fit_strip_mid; try lia; try apply length_le_blen;
        try (rewrite fronted_length; lia).
      split.
      - intros [(_ & A & _)|(O & _ & A)]; [exfalso; apply text_nil in A; rewrite A in E; symmetry in E; apply app_eq_nil in E; destruct E as [_ E]; apply app_eq_nil in E; destruct E as [E _]; exact (X E)|].
        split; [apply NE; exact O|]. split; [lia|]. lia.
      - intros (O & A & B). right. split; [apply NE; exact O|]. split; [|lia]. intros C. apply text_nil in C. rewrite C in E. symmetry in E. apply app_eq_nil in E.
        destruct E as [_ E]. apply app_eq_nil in E. destruct E as [E _]. exact (X E). }
    destruct (strips_exist w l r (ctext cal)) as [(a & x & b & S & X)|C].
    - rewrite (ONE _ _ _ S X). split.
      + intros (O & A & B). split; [exact O|]. exists a, x, b. auto.
      + intros (O & a' & x' & b' & S' & A & X' & B). assert (P : n_lrstrip ns w l r = Panic) by (apply (ONE _ _ _ S' X'); auto). apply (ONE _ _ _ S X). exact P.
    - split.
      + intros P. exfalso. unfold n_lrstrip in P. cbv zeta in P. unfold ns in P. cbn [show n_normalized] in P.
        destruct (_ || _); [|discriminate].
        match type of P with transform _ (strip_loop 0 ?L ?T ?c ?n ?s) _ = _ => assert (Z : strip_loop 0 L T c n s = []) end.
        { match goal with |- strip_loop 0 ?L ?T ?c ?n ?s = _ => destruct (Nat.le_gt_cases (length s) L) as [H|H] end.
          - rewrite <- (app_nil_r (ctext cal)) at 4. rewrite strip_loop_skip by lia. reflexivity.
          - pose proof (firstn_skipn (if l then take_while_count w (ctext cal) else 0) (ctext cal)) as FS. rewrite <- FS at 4.
            rewrite strip_loop_skip by (rewrite firstn_length; lia). apply strip_loop_end. rewrite firstn_length_le by lia. lia. }
        rewrite Z in P. apply (transform_panic orig cal sh _ _ z m W F) in P. destruct P as [(_ & _ & P)|(_ & _ & P)]; apply P; exact I.
      + intros (_ & a & x & b & S & _ & X & _). exfalso. destruct (strips_counts _ _ _ _ _ _ _ S X) as [C1 C2]. rewrite C1, C2, (st_text _ _ _ _ _ _ _ S), !app_length in C.
        apply X. destruct x; [reflexivity|cbn [length] in C; lia].
  Qed.

  Lemma panic_range r dest i : in_contract ns (MTransformRange r dest i) -> (transform_range ns r dest i = Panic <-> bad_range ns r).
  Proof using W.
    intros C. cbn [in_contract] in C.
    assert (OK : forall a b t, str_get (ctext cal) a b = Some t ->
      match r with RNormalized s e => full_range s e (n_len ns) = (a, b) | ROriginal _ _ => convert_offsets ns r = Some (a, b) end -> transform_range ns r dest i <> Panic).
    { intros a b t G R P. assert (GR : n_get_range ns r = Some t) by (destruct r; cbn [n_get_range]; rewrite R; exact G).
      apply C in GR. destruct (get_range_parts _ _ _ _ G) as (p & x & q & E & -> & -> & ->). rewrite length_ctext in GR.
      unfold ns in P. rewrite E in P. rewrite (transform_range_cal orig p x q sh r) in P.
      - unfold trange in P. destruct (tloop_total dest (last_al (0, 0) (p ++ firstn i x)) (skipn i x) q) as [new T]; [rewrite skipn_length; exact GR|]. rewrite T in P. discriminate.
      - unfold ns in R. rewrite E in R. destruct r; exact R. }
    destruct r as [s e|s e]; cbn [bad_range].
    - destruct (full_range s e (n_len_original ns)) as [a b] eqn:FR. pose proof (convert_original_eq ns a b s e FR) as CE.
      destruct (Nat.lt_trichotomy a b) as [L|[<- | L]].
      + split; [|intros [X _]; lia]. intros P. exfalso. destruct (zones_exist a b cal) as (z' & m' & q & E & Z).
        pose proof (convert_original orig cal sh a b z' m' q E Z L) as CO. fold ns in CO. rewrite <- CE in CO.
        destruct (z' ++ m') as [|ca zm] eqn:ZM.
        * unfold transform_range in P. rewrite CO in P. discriminate.
        * eapply OK; [|exact CO|exact P]. rewrite E, !ctext_app. apply str_get_app.
      + assert (CO : convert_offsets ns (ROriginal s e) = Some (a, a)) by (rewrite CE; unfold convert_offsets, ro; cbn [full_range]; rewrite Nat.eqb_refl; reflexivity).
        destruct (str_get (ctext cal) a a) as [t|] eqn:G.
        * split; [intros P; exfalso; exact (OK _ _ _ G CO P)|]. intros [_ X]. exfalso. cbn [ns show n_normalized] in X.
          destruct (get_range_parts _ _ _ _ G) as (p & x & q & E & _ & -> & _). rewrite E, ctext_app in X.
          assert (is_boundary (ctext p ++ ctext (x ++ q)) (blen (ctext p)) = true) by (apply is_boundary_spec; eauto). congruence.
        * pose proof G as G'. apply str_get_none_iff in G'. split.
          -- intros _. split; [reflexivity|]. cbn [ns show n_normalized]. destruct (is_boundary (ctext cal) a); [|reflexivity]. exfalso. apply G'. auto.
          -- intros _. unfold transform_range. rewrite CO. cbn [ns show n_normalized]. rewrite G. reflexivity.
      + split; [|intros [X _]; lia]. intros P. exfalso. unfold transform_range in P. rewrite CE in P. unfold convert_offsets, ro in P. cbn [full_range] in P.
        replace (a =? b) with false in P by lia. replace (b <? a) with true in P by lia. discriminate.
    - destruct (full_range s e (n_len ns)) as [a b] eqn:FR. rewrite <- str_get_none_iff. split.
      + intros P. cbn [ns show n_normalized]. destruct (str_get (ctext cal) a b) as [t|] eqn:G; [|reflexivity]. exfalso. exact (OK _ _ _ G eq_refl P).
      + intros G. unfold transform_range. rewrite FR. cbn [ns show n_normalized] in *. rewrite G. reflexivity.
  Qed.
End exact.

Lemma step_panic orig cal z m sh op : wf_cal orig cal -> fronted cal z m -> sensible (show orig cal sh) op ->
  (apply_norm_op (show orig cal sh) op = Panic <-> panics_when (show orig cal sh) (length z) op).
Proof.
  intros W F [C S]. destruct op; cbn [apply_norm_op panics_when]; cbn [show n_original n_normalized]; rewrite ?(fronted_back _ _ _ F).
  - apply panic_range; assumption.
  - rewrite (transform_panic orig cal sh dest initial_offset z m W F), text_nil. reflexivity.
  - apply panic_filter with (z := z); assumption.
  - split; [|contradiction]. destruct cal as [|[c a] r]; [discriminate|]. rewrite prepend_cal. unfold trange.
    destruct (tloop_total (first_replaces s ++ [(c, 1%Z)]) (last_al (0, 0) ([] ++ firstn 0 [(c, a)])) (skipn 0 [(c, a)]) r) as [n E]; [apply fit_app_positive, fit_first_replaces; cbn; lia|].
    rewrite E. discriminate.
  - split; [|contradiction]. destruct cal as [|x l _] using rev_ind.
    + rewrite append_nil. unfold trange. match goal with |- match tloop ?p ?d ?r ?q with _ => _ end = _ -> _ => destruct (tloop_total d p r q) as [n E]; [apply fit_positive|] end. rewrite E. discriminate.
    + destruct x as [c a]. rewrite append_cal. unfold trange. match goal with |- match tloop ?p ?d ?r ?q with _ => _ end = _ -> _ => destruct (tloop_total d p r q) as [n E]; [cbn; split; [lia|apply fit_positive]|] end.
      rewrite E. discriminate.
  - apply panic_map with (m := m); assumption.
  - apply panic_case with (z := z); assumption.
  - split; [|contradiction]. destruct S as (segs & Ec & Em). cbn [n_normalized show] in *. destruct (lift_segs segs cal Ec) as (csegs & -> & Es & Eo).
    rewrite Em, <- (Eo 0), replace_cal. discriminate.
  - split; [|contradiction]. intros P. apply (transform_panic orig cal sh _ _ z m W F) in P. destruct P as [(_ & _ & P)|(_ & _ & P)]; apply P; exact I.
  - apply panic_strip with (m := m); assumption.
  - split; [|contradiction]. pose proof (slice_wf orig cal sh r W) as H. destruct (n_slice _ r); [discriminate|discriminate|contradiction].
Qed.

(** ** Operations do not return errors *)
Definition no_err {A} (r : res unit A) : Prop := match r with Err _ => False | _ => True end.
Lemma no_err_bind {A B} (r : res unit A) (k : A -> res unit B) : no_err r -> (forall a, no_err (k a)) -> no_err (bind r k).
Proof. intros H K. destruct r; cbn [bind no_err] in *; auto. Qed.
Lemma no_err_option {A} (o : option A) : no_err (of_option o).
Proof. destruct o; exact I. Qed.
Lemma no_err_slice {A} (l : list A) a b : no_err (slice l a b).
Proof. unfold slice. destruct (_ && _); exact I. Qed.
Lemma no_err_loop al dest : forall offset rest, no_err (transform_loop al dest offset rest).
Proof.
  induction dest as [|[c ch] dest IH]; intros offset rest; cbn [transform_loop]; [exact I|]. apply no_err_bind.
  - destruct (0 <? ch)%Z; [destruct (offset <? 1); [exact I|]|]; apply no_err_option.
  - intros a. destruct (if (0 <? ch)%Z then _ else _) as [x y]. apply no_err_bind; [apply IH|]. intros; exact I.
Qed.
Lemma no_err_range ns r dest i : no_err (transform_range ns r dest i).
Proof.
  unfold transform_range. destruct (match r with ROriginal _ _ => _ | RNormalized _ _ => _ end) as [[a b]|]; [|exact I].
  apply no_err_bind; [apply no_err_option|]. intros t. apply no_err_bind; [apply no_err_loop|]. intros al. apply no_err_bind.
  - unfold splice. destruct (_ && _); exact I.
  - intros al'. apply no_err_bind; [|intros; exact I]. unfold str_splice. destruct (a <=? b); [|exact I]. destruct (bsplit b _) as [[p q]|]; [|exact I].
    destruct (bsplit a p) as [[p' q']|]; exact I.
Qed.
Lemma no_err_replace ns content ms : forall last, no_err (replace_loop ns ms content last).
Proof.
  induction ms as [|[[st fi] f] ms IH]; intros last; cbn [replace_loop].
  - apply no_err_bind; [apply no_err_option|]. intros t. apply no_err_bind; [apply no_err_slice|]. intros; exact I.
  - destruct f; [|apply IH]. apply no_err_bind; [apply no_err_option|]. intros t. apply no_err_bind; [apply no_err_option|]. intros b.
    apply no_err_bind; [apply no_err_slice|]. intros al. cbv zeta. apply no_err_bind; [apply no_err_loop|]. intros new.
    apply no_err_bind; [apply IH|]. intros [x y]. exact I.
Qed.
Lemma no_err_op ns op : no_err (apply_norm_op ns op).
Proof.
  destruct op; cbn [apply_norm_op]; try apply no_err_range.
  - unfold n_filter. destruct (filter_loop _ _ _ _ _). apply no_err_range.
  - unfold n_prepend. destruct (n_normalized ns); [exact I|apply no_err_range].
  - unfold n_append. destruct (rev _) as [|[b p] l]; apply no_err_range.
  - unfold n_replace. apply no_err_bind; [apply no_err_replace|]. intros [x y]. exact I.
  - unfold n_lrstrip. cbv zeta. destruct (_ || _); [apply no_err_range|exact I].
  - destruct (n_slice ns r); exact I.
Qed.

(** A text that is stripped altogether. *)
Lemma strip_all orig cal sh w l r a b : strips w l r (ctext cal) a [] b ->
  (a = [] /\ b = [] /\ n_lrstrip (show orig cal sh) w l r = Ok (show orig cal sh)) \/
  ((a <> [] \/ b <> []) /\ exists i, n_lrstrip (show orig cal sh) w l r = transform (show orig cal sh) [] i).
Proof.
  intros [E A B NL NR _ _]. cbn [app] in E. destruct (ctext cal) as [|c t] eqn:T.
  - symmetry in E. apply app_eq_nil in E. destruct E as [-> ->]. left. split; [reflexivity|]. split; [reflexivity|].
    unfold n_lrstrip. cbn [show n_normalized]. rewrite T. destruct l, r; reflexivity.
  - right. assert (ALL : Forall (fun c => w c = true) (c :: t)) by (rewrite E; apply Forall_app; split; assumption).
    assert (TW : forall s, Forall (fun c => w c = true) s -> take_while_count w s = length s).
    { intros s H. rewrite <- (app_nil_r s) at 1. apply twc_app; [exact H|exact I]. }
    split; [destruct a; [right; destruct b; discriminate|left; discriminate]|]. unfold n_lrstrip. cbn [show n_normalized]. rewrite T. cbv zeta.
    pose proof (TW _ ALL) as T1. pose proof (TW _ (Forall_rev ALL)) as T2. rewrite rev_length in T2.
    destruct l.
    + rewrite T1. cbn [length Nat.ltb Nat.leb orb]. exists (length (c :: t)). f_equal.
      match goal with |- strip_loop 0 ?L ?T ?k ?n ?s = _ => pose proof (strip_loop_skip L T k n s 0 [] (Nat.le_refl _)) as X end.
      rewrite app_nil_r in X. exact X.
    + destruct r.
      * rewrite T2. cbn [length Nat.ltb Nat.leb orb]. exists 0. f_equal. apply strip_loop_end. cbn [length]. lia.
      * exfalso. rewrite (NL eq_refl), (NR eq_refl) in E. discriminate.
Qed.
