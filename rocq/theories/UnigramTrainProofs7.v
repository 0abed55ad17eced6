(** Pruning in terms of uses and losses. *)
From Coq Require Import Permutation Sorted.
From Verif Require Import Base StrBytes ListFacts AMap Utf8 EncodingModel BpeModel UnigramModel UnigramSpec UnigramProofs UnigramProps NBestSpec NBestProps MarginalModel TrainersModel UnigramTrainModel UnigramTrainSpec UnigramTrainProofs UnigramTrainProofs2 UnigramTrainProofs3 UnigramTrainProofs4 UnigramTrainProofs5 UnigramTrainProofs6.

Section losses.
  Context {W : Type} (A : arith W) (T : tarith W) (m : unigram W) (whole : W -> Prop) (HW : whole_laws A T whole).
  Notation add := (a_add A).
  Notation zero := (a_zero A).
  Context (wc : list (str * N)) (segs : list (list (str * N * W))) (Hlen : length wc = length segs).

  Definition seg_words : list (N * list (str * N * W)) := combine (map snd wc) segs.

  Lemma words_all : wsum A (map (fun w : nat * (str * N) => ta_of T (snd (snd w))) (numbered_words wc)) = all_words A T seg_words.
  Proof.
    unfold all_words, numbered_words, seg_words. f_equal. generalize 0. revert segs Hlen. induction wc as [|e l IH]; intros [|sg sl] L k; cbn in L; try lia; [reflexivity|]. cbn. f_equal. apply IH. lia.
  Qed.
  Lemma words_freqs id : freqs T (numbered_words wc) segs id = flat_map (fun e => repeat (ta_of T (fst e)) (uses_in id (snd e))) seg_words.
  Proof.
    unfold freqs, numbered_words, seg_words. generalize 0. revert segs Hlen. induction wc as [|e l IH]; intros [|sg sl] L k; cbn in L; try lia; [reflexivity|]. cbn. f_equal. apply IH. lia.
  Qed.
  (** The counts at the places of a piece. *)
  Lemma counts_at id : collect (E := uni_error) (fun k => let! s := of_option (nth_error wc k) in Ok (ta_of T (snd s))) (places (numbered_words wc) segs id) = Ok (freqs T (numbered_words wc) segs id).
  Proof.
    unfold places, freqs, numbered_words. set (f := fun k => _).
    assert (G : forall (l : list (str * N)) (sl : list (list (str * N * W))) k, length l = length sl -> (forall i e, nth_error l i = Some e -> nth_error wc (k + i) = Some e) ->
      collect f (concat (zip_with (fun (w : nat * (str * N)) seg => repeat (fst w) (uses_in id seg)) (combine (seq k (length l)) l) sl)) =
      Ok (concat (zip_with (fun (w : nat * (str * N)) seg => repeat (ta_of T (snd (snd w))) (uses_in id seg)) (combine (seq k (length l)) l) sl))).
    { induction l as [|e l IH]; intros [|sg sl] k L H; cbn in L; try lia; [reflexivity|]. cbn [length seq combine zip_with concat fst snd].
      assert (Ek : nth_error wc k = Some e) by (rewrite <- (Nat.add_0_r k); apply H; reflexivity).
      assert (IH' := IH sl (S k) ltac:(lia) ltac:(intros i x E; replace (S k + i) with (k + S i) by lia; apply H; exact E)). clear IH.
      induction (uses_in id sg) as [|j IHj]; cbn [repeat app collect]; [exact IH'|]. unfold f at 1. rewrite Ek. cbn [of_option bind]. rewrite IHj. reflexivity. }
    apply G; [exact Hlen|]. intros i e E. exact E.
  Qed.

  Context (n : nat) (vsum : W) (freq : list W) (inv : list (list nat)).
  Context (Hv : vsum = wsum A (map (fun w : nat * (str * N) => ta_of T (snd (snd w))) (numbered_words wc))) (Lf : length freq = n) (Li : length inv = n) (Ff : Forall whole freq).
  Context (Huse : forall id, id < n -> nth id freq zero = wsum A (freqs T (numbered_words wc) segs id) /\ nth id inv [] = places (numbered_words wc) segs id).

  Lemma freq_at id fid : nth_error freq id = Some fid -> fid = use_total A T seg_words id /\ id < n.
  Proof.
    intros E. assert (L : id < n) by (rewrite <- Lf; apply nth_error_Some; congruence). split; [|exact L]. rewrite <- (nth_error_nth _ _ zero E). rewrite (proj1 (Huse id L)). unfold use_total. f_equal. apply words_freqs.
  Qed.
  Lemma sum_is : fold_left add freq zero = all_uses A T n seg_words.
  Proof.
    rewrite (whole_left0 A T whole HW) by exact Ff. unfold all_uses. f_equal. apply nth_error_ext. intros i. destruct (Nat.lt_ge_cases i n) as [Hi|Hi].
    2:{ rewrite !(proj2 (nth_error_None _ _)); [reflexivity| |lia]. rewrite map_length, seq_length. exact Hi. }
    destruct (nth_error freq i) as [x|] eqn:E; [|apply nth_error_None in E; lia]. destruct (freq_at i x E) as [-> _]. symmetry. rewrite nth_error_map. rewrite (nth_error_nth' _ 0) by (rewrite seq_length; exact Hi). rewrite seq_nth by exact Hi. reflexivity.
  Qed.

  Lemma loss_is id fid u alt : nth_error freq id = Some fid -> nth_error inv id = Some u -> Forall (fun i => i < n) alt ->
    loss_of A T wc vsum (fold_left add freq zero) freq u fid alt =
      if ta_is_zero T (use_total A T seg_words id) || ta_is_nan T (use_total A T seg_words id) then Ok None
      else if ta_is_nan T (removal_loss A T n seg_words id alt) then Panic else Ok (Some (removal_loss A T n seg_words id alt)).
  Proof.
    intros E1 E2 FA. destruct (freq_at id fid E1) as [EF L]. assert (EI : u = places (numbered_words wc) segs id) by (rewrite <- (proj2 (Huse id L)); symmetry; apply (nth_error_nth _ _ [] E2)). subst u.
    unfold loss_of. rewrite counts_at. cbn [bind]. rewrite (whole_left0 A T whole HW) by apply (freqs_whole A T whole HW).
    assert (EU : wsum A (freqs T (numbered_words wc) segs id) = use_total A T seg_words id) by (unfold use_total; f_equal; apply words_freqs). rewrite EU.
    destruct (ta_is_zero T (use_total A T seg_words id) || ta_is_nan T (use_total A T seg_words id)); [reflexivity|].
    assert (CA : collect (E := uni_error) (fun k => of_option (nth_error freq k)) alt = Ok (map (use_total A T seg_words) alt)).
    { clear E2. induction FA as [|k alt Hk FA IH]; [reflexivity|]. cbn [collect map]. destruct (nth_error freq k) as [x|] eqn:Ek; [|apply nth_error_None in Ek; lia]. destruct (freq_at k x Ek) as [-> _]. cbn [of_option bind]. rewrite IH. reflexivity. }
    rewrite CA. cbn [bind]. rewrite sum_is, Hv, words_all, EF.
    assert (FO : forall l acc, fold_left (fun acc fn => add acc (ta_sub T (ta_ln T (add fn (use_total A T seg_words id))) (ta_ln T (add (all_uses A T n seg_words) (ta_mul T (use_total A T seg_words id) (ta_of T (N.of_nat (length alt - 1)))))))) (map (use_total A T seg_words) l) acc =
      fold_left (fun acc j => add acc (ta_sub T (ta_ln T (add (use_total A T seg_words j) (use_total A T seg_words id))) (ta_ln T (add (all_uses A T n seg_words) (ta_mul T (use_total A T seg_words id) (ta_of T (N.of_nat (length alt - 1)))))))) l acc).
    { induction l as [|j l IH]; intros acc; [reflexivity|]. cbn [map fold_left]. apply IH. }
    rewrite FO. reflexivity.
  Qed.
End losses.

Section prune.
  Context {W : Type} (A : arith W) (T : tarith W).
  Notation at_ l := (fun i x => nth_error l i = Some x).

  Lemma sift_total wc vsum sum freq inv alts n (all : list (str * W)) : length freq = n -> length inv = n -> length alts = n -> length all = n ->
    (forall id ka fid u, nth_error alts id = Some ka -> nth_error freq id = Some fid -> nth_error inv id = Some u -> forall e, loss_of A T wc vsum sum freq u fid (snd ka) <> Err e) ->
    forall pieces id kept cands, id + length pieces = n ->
    (exists r, sift A T wc vsum sum freq inv alts id pieces kept cands = Ok r) \/
    sift A T wc vsum sum freq inv alts id pieces kept cands = Panic /\ exists i ka fid u, 0 < i < n /\ snd ka <> [] /\ nth_error alts i = Some ka /\ nth_error freq i = Some fid /\ nth_error inv i = Some u /\ loss_of A T wc vsum sum freq u fid (snd ka) = Panic.
  Proof.
    intros L1 L2 L3 L4 HE. induction pieces as [|p pieces IH]; intros id kept cands LI; cbn [sift]; [eauto|]. cbn [length] in LI.
    destruct (Nat.eqb_spec id 0); [apply IH; lia|]. destruct (nth_error freq id) as [fid|] eqn:EF; [|apply nth_error_None in EF; lia]. destruct (nth_error alts id) as [ka|] eqn:EK; [|apply nth_error_None in EK; lia]. cbn [of_option bind].
    destruct (ta_is_zero T fid && negb (fst ka)); [apply IH; lia|]. destruct (is_nil (snd ka)) eqn:EN; [apply IH; lia|]. destruct (nth_error inv id) as [u|] eqn:EU; [|apply nth_error_None in EU; lia]. cbn [of_option bind].
    destruct (loss_of A T wc vsum sum freq u fid (snd ka)) as [[l|]|e|] eqn:EL; cbn [bind]; try (apply IH; lia); [exfalso; eapply HE; eauto|]. right. split; [reflexivity|]. exists id, ka, fid, u. split; [lia|]. split; [intros X; rewrite X in EN; discriminate|]. repeat (split; [assumption|]). exact EL.
  Qed.
  Lemma refill_total size (all : list (str * W)) : forall (cands : list (nat * W)) new, Forall (fun c => fst c < length all) cands -> exists new', refill size all cands new = Ok new'.
  Proof.
    induction cands as [|[id l] cands IH]; intros new F; cbn [refill]; [eauto|]. inversion F as [|? ? H F']; subst. cbn in H. destruct (length new =? size); [eauto|]. destruct (nth_error all id) eqn:E; [|apply nth_error_None in E; lia]. cbn [of_option bind]. apply IH. exact F'.
  Qed.

  (** *** Pruning *)
  Context (m : unigram W) (Hm : made A m) (Hu : u_unk m = Some 0%N) (whole : W -> Prop) (HW : whole_laws A T whole).
  Context (threads : nat) (plan : nat -> rtree) (fuel : nat) (pop : list (hypothesis W) -> option (hypothesis W * list (hypothesis W))) (HP : bag_pop pop) (vocab_size : nat).
  Context (wc : list (str * N)) (Hwc : Forall (fun e => text_ok (fst e)) wc).
  Notation pieces := (u_vocab m).
  Context (Hp : Forall (fun p => text_ok (fst p) /\ length (fst p) <= 16 /\ 3 * 2 ^ length (fst p) < fuel) (tl pieces)).
  Notation n := (length pieces).

  Lemma segs_plain segs : Forall2 (fun (w : nat * (str * N)) seg => chosen A m (fst (snd w)) seg) (numbered_words wc) segs -> Forall2 (fun e seg => chosen A m (fst e) seg) wc segs.
  Proof.
    unfold numbered_words. generalize 0. clear. revert segs. induction wc as [|e l IH]; intros segs k F; cbn in F; inversion F; subst; constructor; [assumption|]. eapply IH. eassumption.
  Qed.

  (** What is known of each piece: whether it is kept when unused, and its alternative. *)
  Lemma alternatives_all : exists alts, all_alternatives A fuel pop m pieces = Ok alts /\ length alts = n /\
    forall i ka, nth_error alts i = Some ka -> 0 < i -> exists p, nth_error pieces i = Some p /\ alternatives A fuel pop m (fst p) = Ok ka.
  Proof.
    destruct pieces as [|p0 ps] eqn:EP; [exists []; split; [reflexivity|]; split; [reflexivity|]; intros [|i]; discriminate|]. cbn [tl] in Hp. cbn [all_alternatives].
    destruct (collect_total (fun p => alternatives A fuel pop m (fst p)) ps (fun p ka => alternatives A fuel pop m (fst p) = Ok ka)) as (r & E & F).
    { intros p Ip. rewrite Forall_forall in Hp. destruct (Hp p Ip) as (T1 & T2 & T3). destruct (alternatives_total A m Hm 0%N Hu fuel pop HP (fst p) T1 T2 T3) as (b & ids & E & _). eauto. }
    rewrite E. cbn [bind]. exists ((false, []) :: r). split; [reflexivity|]. split; [cbn; f_equal; symmetry; eapply Forall2_len; exact F|]. intros [|i] ka Hi P; [lia|]. cbn [nth_error] in *. clear - F Hi. revert i Hi. induction F as [|p x ps r H F IH]; intros [|i] Hi; try discriminate; cbn [nth_error] in *.
    - injection Hi as <-. eauto.
    - apply IH. exact Hi.
  Qed.

  Context (Hne : pieces <> []).
  Notation size := (Nat.max ((vocab_size * 11) / 10) (ta_shrink T n)).
  Notation unused words i := (ta_is_zero T (use_total A T words i) = true).
  Theorem prune_spec step : leaves (plan step) = length (chunks threads wc) ->
    exists segs alts, Forall2 (fun e seg => chosen A m (fst e) seg) wc segs /\ length alts = n /\
    (forall i p, 0 < i -> nth_error pieces i = Some p -> exists ka, nth_error alts i = Some ka /\ alternatives A fuel pop m (fst p) = Ok ka) /\
    let words := combine (map snd wc) segs in let alt i := snd (nth i alts (false, [])) in
    let loss i := removal_loss A T n words i (alt i) in
    (prune_pieces A T threads plan fuel pop vocab_size step m pieces wc = Panic /\ exists i, 0 < i < n /\ alt i <> [] /\ ta_is_nan T (loss i) = true) \/
    exists new keep losses k, prune_pieces A T threads plan fuel pop vocab_size step m pieces wc = Ok new /\
      picked pieces (0 :: keep ++ map fst (firstn k (sort_by (fun a b => a_gtb A (snd a) (snd b)) losses))) new /\
      k <= length losses /\ (k < length losses -> length new = size) /\ (1 + length keep <= size -> length new <= size) /\
      NoDup (keep ++ map fst losses) /\
      (forall i, In i keep -> 0 < i < n /\ alt i = []) /\
      (forall i x, In (i, x) losses -> 0 < i < n /\ alt i <> [] /\ x = loss i /\ ta_is_nan T x = false) /\
      (forall i, 0 < i < n -> nth_error alts i = Some (true, []) -> In i keep) /\
      (forall i, 0 < i < n -> In i keep \/ In i (map fst losses) \/ unused words i \/ ta_is_nan T (use_total A T words i) = true).
  Proof.
    intros LV. destruct alternatives_all as (alts & EA & LA & HA). destruct (uses_spec A T m Hm 0%N Hu n eq_refl whole HW threads plan wc Hwc step LV) as (segs & vsum & freq & inv & FS & EU & EV & LF & FF & LI & HU).
    assert (FS' := segs_plain segs FS). assert (Hlen : length wc = length segs) by (eapply Forall2_len; exact FS').
    exists segs, alts. split; [exact FS'|]. split; [exact LA|].
    assert (HB : forall i p, 0 < i -> nth_error pieces i = Some p -> exists ka, nth_error alts i = Some ka /\ alternatives A fuel pop m (fst p) = Ok ka).
    { intros i p P E. assert (Li : i < n) by (apply nth_error_Some; congruence). destruct (nth_error alts i) as [ka|] eqn:Ek; [|apply nth_error_None in Ek; lia]. exists ka. split; [reflexivity|]. destruct (HA i ka Ek P) as (p' & E' & AL). rewrite E in E'. injection E' as <-. exact AL. }
    split; [exact HB|]. cbn zeta. set (words := combine (map snd wc) segs). set (alt := fun i => snd (nth i alts (false, []))). set (sum := fold_left (a_add A) freq (a_zero A)).
    assert (RG : forall i ka, 0 < i -> nth_error alts i = Some ka -> Forall (fun j => j < n) (snd ka) /\ alt i = snd ka /\ i < n).
    { intros i ka P E. assert (Li : i < n) by (rewrite <- LA; apply nth_error_Some; congruence). split; [|split; [unfold alt; rewrite (nth_error_nth _ _ _ E); reflexivity|exact Li]]. destruct (HA i ka E P) as (p & EP & AL).
      assert (Ip : In p (tl pieces)). { destruct pieces as [|q ps]; [destruct i; discriminate|]. destruct i as [|i]; [lia|]. cbn in *. eapply nth_error_In; eauto. }
      rewrite Forall_forall in Hp. destruct (Hp p Ip) as (T1 & T2 & T3). destruct (alternatives_total A m Hm 0%N Hu fuel pop HP (fst p) T1 T2 T3) as (b & ids & E2 & R & _). rewrite AL in E2. injection E2 as ->. exact R. }
    assert (LO : forall i ka fid u, 0 < i -> nth_error alts i = Some ka -> nth_error freq i = Some fid -> nth_error inv i = Some u -> loss_of A T wc vsum sum freq u fid (snd ka) =
      if ta_is_zero T (use_total A T words i) || ta_is_nan T (use_total A T words i) then Ok None else if ta_is_nan T (removal_loss A T n words i (alt i)) then Panic else Ok (Some (removal_loss A T n words i (alt i)))).
    { intros i ka fid u P E1 E2 E3. destruct (RG i ka P E1) as (R1 & R2 & R3). unfold sum, words, alt. fold (seg_words wc segs). rewrite (loss_is A T whole HW wc segs Hlen n vsum freq inv EV LF LI FF HU i fid u (snd ka) E2 E3 R1). fold (alt i). rewrite R2. reflexivity. }
    destruct (nth_error pieces 0) as [p0|] eqn:E0; [|apply nth_error_None in E0; destruct pieces; [congruence|cbn in E0; lia]].
    destruct (sift_total wc vsum sum freq inv alts n pieces LF LI LA eq_refl) with (pieces := pieces) (id := 0) (kept := [p0]) (cands := @nil (nat * W)) as [(r & ES)|(ES & i & ka & fid & u & Hi & NE & E1 & E2 & E3 & EL)]; [|reflexivity| |].
    { intros id ka fid u E1 E2 E3 e X. destruct id as [|id]; [|rewrite (LO (S id) ka fid u ltac:(lia) E1 E2 E3) in X; repeat (destruct (_ : bool) in X; try discriminate)].
      exfalso. assert (ka = (false, [])). { clear - EA E1. unfold all_alternatives in EA. destruct pieces; [injection EA as <-; discriminate|]. destruct (collect _ _); cbn in EA; try discriminate. injection EA as <-. cbn in E1. congruence. }
      subst ka. unfold loss_of in X. cbn [snd collect] in X.
      assert (EI : u = places (numbered_words wc) segs 0). { destruct (HU 0 ltac:(rewrite <- LI; apply nth_error_Some; congruence)) as [_ <-]. symmetry. apply (nth_error_nth _ _ [] E3). }
      subst u. rewrite (counts_at T wc segs Hlen 0) in X. cbn [bind] in X. repeat (destruct (_ : bool) in X; try discriminate). }
    - right. assert (NA : forall i x, In (i, x) (snd r) -> i < n). 
      { destruct r as [kept losses]. destruct (sift_picks A T wc vsum sum freq inv alts pieces pieces 0 [p0] [] kept losses eq_refl ltac:(lia) ES) as (is & ks & cs & _ & E2 & _ & _ & B & _). cbn in E2. subst cs. intros i x I. cbn in I. rewrite Forall_forall in B. apply (B i). apply in_or_app. right. apply in_map_iff. exists (i, x). auto. }
      destruct (refill_total size pieces (sort_by (fun a b => a_gtb A (snd a) (snd b)) (snd r)) (fst r)) as (new & EN).
      { apply (Permutation_Forall (Permutation_sym (sort_by_perm _ (snd r)))). apply Forall_forall. intros [i x] I. eapply NA. exact I. }
      assert (EP : prune_pieces A T threads plan fuel pop vocab_size step m pieces wc = Ok new).
      { unfold prune_pieces. rewrite EA. cbn [bind]. rewrite EU. cbn [bind]. rewrite E0. cbn [of_option bind]. fold sum. rewrite ES. cbn [bind]. exact EN. }
      destruct (prune_shape A T threads plan fuel pop vocab_size step m pieces wc new EP) as (alts' & vsum' & freq' & inv' & keep & losses & k & EA' & EU' & PK & ND & L1 & L2 & L3 & KE & KA & LS & DR).
      rewrite EA in EA'. injection EA' as <-. rewrite EU in EU'. injection EU' as <- <- <-. fold sum in LS, DR.
      assert (INR : forall i, In i (keep ++ map fst losses) -> 0 < i < n).
      { intros i Ii. inversion ND as [|? ? N0 ND']; subst. destruct i as [|i]; [contradiction|]. split; [lia|]. apply in_app_or in Ii. destruct Ii as [Ii|Ii].
        - destruct (KA _ Ii) as (ka & E & _). rewrite <- LA. apply nth_error_Some. congruence.
        - apply in_map_iff in Ii. destruct Ii as ([j x] & <- & Ij). destruct (LS _ _ Ij) as (ka & u & fid & E & _). cbn. rewrite <- LA. apply nth_error_Some. congruence. }
      exists new, keep, losses, k. split; [exact EP|]. split; [exact PK|]. split; [exact L3|]. split; [exact L1|]. split; [exact L2|]. split; [inversion ND; assumption|]. split; [|split; [|split]].
      + intros i Ii. pose proof (INR i ltac:(apply in_or_app; auto)) as R. split; [exact R|]. destruct (KA i Ii) as (ka & E & E2). destruct (RG i ka ltac:(lia) E) as (_ & -> & _). exact E2.
      + intros i x Ii. pose proof (INR i ltac:(apply in_or_app; right; apply in_map_iff; exists (i, x); auto)) as R. split; [exact R|]. destruct (LS i x Ii) as (ka & u & fid & E1 & NE & E2 & E3 & EL). destruct (RG i ka ltac:(lia) E1) as (_ & R2 & _). rewrite R2 at 1. split; [exact NE|].
        rewrite (LO i ka fid u ltac:(lia) E1 E3 E2) in EL. destruct (ta_is_zero T _ || _); [discriminate|]. destruct (ta_is_nan T (removal_loss A T n words i (alt i))) eqn:EN2; [discriminate|]. injection EL as <-. auto.
      + intros i Hi E. destruct (nth_error pieces i) as [p|] eqn:EP2; [|apply nth_error_None in EP2; lia]. apply (KE i p); auto. lia.
      + intros i Hi. destruct (DR i Hi) as [X|[X|[(fid & E & Z)|(ka & u & fid & E1 & E2 & E3 & EL)]]]; [auto|auto| |].
        * right. right. left. destruct (freq_at A T wc segs Hlen n freq inv LF HU i fid E) as [-> _]. exact Z.
        * rewrite (LO i ka fid u ltac:(lia) E1 E3 E2) in EL. destruct (ta_is_zero T (use_total A T words i)) eqn:Z; [auto|]. destruct (ta_is_nan T (use_total A T words i)) eqn:Z2; [auto|]. cbn [orb] in EL. destruct (ta_is_nan T (removal_loss A T n words i (alt i))); discriminate EL.
    - left. split.
      + unfold prune_pieces. rewrite EA. cbn [bind]. rewrite EU. cbn [bind]. rewrite E0. cbn [of_option bind]. fold sum. rewrite ES. reflexivity.
      + exists i. split; [exact Hi|]. rewrite (LO i ka fid u ltac:(lia) E1 E2 E3) in EL. destruct (ta_is_zero T _ || _) eqn:Z; [discriminate|]. destruct (ta_is_nan T (removal_loss A T n words i (alt i))) eqn:EN2; [|discriminate]. split; [|reflexivity]. destruct (RG i ka ltac:(lia) E1) as (_ & -> & _). exact NE.
  Qed.
End prune.
