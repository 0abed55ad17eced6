(** C75 for real numbers: the laws hold, and a training that does not end. *)
From Coq Require Import Reals Lra Ring_theory Permutation Sorted.
From Verif Require Import Base StrBytes ListFacts AMap Utf8 EncodingModel BpeModel UnigramModel UnigramSpec UnigramProofs UnigramProps NBestSpec NBestProps MarginalModel MarginalSpec MarginalProps MarginalRealProps TrainersModel TrainersSpec BpeTrainProofs5 TrainersProofs2 TrainersProps UnigramTrainModel UnigramTrainSpec UnigramTrainProofs UnigramTrainProofs2 UnigramTrainProofs5 UnigramTrainProps.

Definition real_zero (x : R) : bool := if Req_EM_T x 0%R then true else false.
(** The numbers of the training as real numbers. *)
Definition real_tarith (shrink : nat -> nat) : tarith R :=
  mkTarith never (fun vmin vmax => vmax + ln (exp (vmin - vmax) + 1))%R Rminus exp Rmult Rdiv ln (fun n => IZR (Z.of_N n)) real_zero (fun _ => false) shrink.

Theorem C75_real_laws : forall big shrink, exact_marith (real_arith big) (t_marith (real_arith big) (real_tarith shrink)) 0%R 1%R Rinv /\
  whole_laws (real_arith big) (real_tarith shrink) (fun _ => True) /\ loss_order (real_arith big) (real_tarith shrink) /\ forall x, ta_is_nan (real_tarith shrink) x = false.
Proof.
  intros big shrink. split; [exact (proj1 (C74_real_laws big))|]. split; [|split; [|reflexivity]].
  - constructor; cbn; intros; trivial; ring.
  - split; cbn; unfold real_gtb; intros.
    + destruct (Rlt_dec b a), (Rlt_dec a b); try discriminate; try reflexivity. lra.
    + destruct (Rlt_dec a b); try discriminate. destruct (Rlt_dec b c); try discriminate. destruct (Rlt_dec a c); [lra|reflexivity].
Qed.

Lemma nth_seq l : map (fun i => fst (nth (i - 1) l ([] : str, 0%R))) (seq 1 (length l)) = map fst l.
Proof.
  induction l as [|x l IH] using rev_ind; [reflexivity|]. rewrite app_length, seq_app, !map_app. cbn [length seq map]. f_equal.
  - rewrite <- IH. apply map_ext_in. intros i Hi. apply in_seq in Hi. rewrite app_nth1 by lia. reflexivity.
  - replace (1 + length l - 1) with (length l) by lia. rewrite app_nth2, Nat.sub_diag by lia. reflexivity.
Qed.

Section endless.
  Context (big : R) (shrink : nat -> nat) (nan : R) (enough : R -> bool) (rescore : R -> R -> R).
  Context (threads : nat) (plan : nat -> rtree) (fuel : nat) (pop : list (hypothesis R) -> option (hypothesis R * list (hypothesis R))).
  Notation A := (real_arith big).
  Notation T := (real_tarith shrink).
  (** Different characters, each of which is a word. *)
  Context (cs : list char) (ND : NoDup cs) (SC : text_ok cs) (wc : list (str * N)) (Ewc : wc = map (fun c => ([c], 1%N)) cs).
  Context (Hen : enough 1%R = true) (HP : bag_pop pop) (Hf : 6 < fuel) (LV : forall step, leaves (plan step) = length (chunks threads wc)).
  Context (tr : uni_trainer) (Hlim : (ut_vocab_size tr * 11) / 10 <= length cs).

  Definition all_single (pieces : list (str * R)) : Prop := exists w0 l, pieces = (training_unk, w0) :: l /\ Permutation (map fst l) (map (fun c => [c]) cs).

  Lemma single_text pieces p : all_single pieces -> In p (tl pieces) -> exists c, fst p = [c] /\ In c cs.
  Proof. intros (w0 & l & -> & P) I. cbn in I. apply (in_map fst) in I. apply (Permutation_in _ P) in I. apply in_map_iff in I. destruct I as (c & <- & I). eauto. Qed.
  Lemma single_model pieces : all_single pieces -> exists m, uni_from A pieces (Some 0%N) false = Ok m /\ made A m /\ u_vocab m = pieces /\ u_unk m = Some 0%N.
  Proof.
    intros H. pose proof H as (w0 & l & E & P). assert (X : exists m, uni_from A pieces (Some 0%N) false = Ok m).
    { subst pieces. unfold uni_from. cbn [is_nil]. destruct (N.leb_spec (N.of_nat (length ((training_unk, w0) :: l))) 0) as [Q|Q]; [cbn [length] in Q; lia|]. destruct (from_loop _ _ _ _ _ _) as [[ids trie] lo]. eauto. }
    destruct X as (m & X). exists m. destruct (uni_from_ok A _ _ _ _ X) as (V & U & _). split; [exact X|]. split; [|auto]. exists pieces, (Some 0%N), false, m, (u_min m). split; [exact X|]. split; [|destruct m; reflexivity].
    subst pieces. constructor; [repeat constructor|]. apply Forall_forall. intros p I. destruct (single_text _ p H I) as (c & -> & Hc). constructor; [|constructor]. rewrite Forall_forall in SC. apply SC. exact Hc.
  Qed.
  Lemma single_nodup pieces : all_single pieces -> NoDup (map fst pieces).
  Proof.
    intros (w0 & l & -> & P). cbn [map fst]. constructor.
    - intros I. apply (Permutation_in _ P) in I. apply in_map_iff in I. destruct I as (c & X & _). discriminate.
    - apply (Permutation_NoDup (Permutation_sym P)). apply FinFun.Injective_map_NoDup; [intros x y X; congruence|exact ND].
  Qed.
  Lemma single_length pieces : all_single pieces -> length pieces = S (length cs).
  Proof. intros (w0 & l & -> & P). apply Permutation_length in P. rewrite !map_length in P. cbn. lia. Qed.
  (** A character is written in one way. *)
  Lemma single_seg m pieces c i : made A m -> u_vocab m = pieces -> all_single pieces -> 0 < i -> (exists w, nth_error pieces i = Some ([c], w)) ->
    exists w, forall seg, segmentation A m [c] seg <-> seg = [([c], N.of_nat i, w)].
  Proof.
    intros Hm EV HS Pi (w & E). exists w. pose proof (single_nodup _ HS) as NDP.
    assert (LE : last_entry (u_vocab m) [c] (N.of_nat i) w).
    { rewrite EV. split; [rewrite Nat2N.id; exact E|]. rewrite Nat2N.id. intros j u Lj Ej. rewrite NoDup_nth_error in NDP. assert (i = j); [|lia]. apply NDP; [rewrite map_length; apply nth_error_Some; congruence|]. rewrite !nth_error_map, E, Ej. reflexivity. }
    intros seg. split.
    - intros [F TX]. destruct seg as [|[[x id] u] seg]; [discriminate|]. apply Forall_cons_iff in F; destruct F as [IO F']. unfold texts in TX. cbn [map concat fst snd] in TX.
      assert (NX : x <> []). { cbn in IO. destruct IO as [[Q _]|(d & -> & _)]; [exact Q|discriminate]. }
      destruct x as [|x0 x]; [congruence|]. cbn in TX. injection TX as -> TX. apply app_eq_nil in TX. destruct TX as [-> TX].
      assert (seg = []). { destruct seg as [|[[y id'] u'] seg]; [reflexivity|]. exfalso. cbn in TX. apply app_eq_nil in TX. destruct TX as [-> _]. apply Forall_cons_iff in F'; destruct F' as [IO' _]. cbn in IO'. destruct IO' as [[Q _]|(d & Q & _)]; [congruence|discriminate]. }
      subst seg. f_equal. cbn in IO. destruct IO as [[_ LE']|(d & Ed & NI & _)].
      + destruct LE as [L1 L2], LE' as [L1' L2']. assert (EI : N.to_nat id = N.to_nat (N.of_nat i)).
        { rewrite NoDup_nth_error in NDP. apply NDP; [rewrite map_length, <- EV; apply nth_error_Some; congruence|]. rewrite !nth_error_map, <- EV, L1, L1'. reflexivity. }
        apply N2Nat.inj in EI. subst id. rewrite L1 in L1'. injection L1' as <-. reflexivity.
      + exfalso. injection Ed as <-. apply NI. rewrite EV. apply in_map_iff. exists ([c], w). split; [reflexivity|]. eapply nth_error_In; eauto.
    - intros ->. split; [constructor; [left; split; [discriminate|exact LE]|constructor]|reflexivity].
  Qed.
  Lemma single_index pieces c : all_single pieces -> In c cs -> exists i w, 0 < i /\ nth_error pieces i = Some ([c], w).
  Proof.
    intros (w0 & l & -> & P) Hc. assert (I : In [c] (map fst l)) by (apply (Permutation_in _ (Permutation_sym P)), in_map_iff; eauto). apply in_map_iff in I. destruct I as ([t w] & E & I). cbn in E. subst t. apply In_nth_error in I. destruct I as (k & I). exists (S k), w. split; [lia|exact I].
  Qed.

  (** The expected counts are 1. *)
  Lemma single_counts step m pieces : made A m -> u_vocab m = pieces -> u_unk m = Some 0%N -> all_single pieces ->
    exists e, run_e_step A T threads plan step m wc = Ok e /\ length e = length pieces /\ forall i, 0 < i < length pieces -> nth i e 0%R = 1%R.
  Proof.
    intros Hm EV EU HS. pose proof (single_nodup _ HS) as NDP. destruct (C75_real_laws big shrink) as (HX & _ & _ & HN).
    (* the segmentations *)
    assert (SG : forall l, (forall c, In c l -> In c cs) -> exists f : str -> list (list (str * N * R)), forall c, In c l -> exists i w, 0 < i /\ nth_error pieces i = Some ([c], w) /\ f [c] = [[([c], N.of_nat i, w)]] /\ forall seg, segmentation A m [c] seg <-> seg = [([c], N.of_nat i, w)]).
    { induction l as [|c l IH]; intros HI; [exists (fun _ => []); intros c []|]. destruct IH as (f & Hf2); [intros; apply HI; right; assumption|]. destruct (single_index pieces c HS (HI c (or_introl eq_refl))) as (i & w & Pi & Ei). destruct (single_seg m pieces c i Hm EV HS Pi (ex_intro _ w Ei)) as (w' & Hw).
      assert (w' = w). { pose proof (proj2 (Hw _) eq_refl) as [F _]. apply Forall_cons_iff in F; destruct F as [IO _]. cbn in IO. destruct IO as [[_ [L _]]|(d & Ed & NI & _)]; [rewrite Nat2N.id, EV, Ei in L; congruence|]. exfalso. apply NI. injection Ed as <-. rewrite EV. apply in_map_iff. exists ([c], w). split; [reflexivity|]. eapply nth_error_In; eauto. }
      subst w'. exists (fun s => if list_eq_dec N.eq_dec s [c] then [[([c], N.of_nat i, w)]] else f s). intros d Hd. destruct (N.eq_dec d c) as [->|NE].
      - exists i, w. destruct (list_eq_dec N.eq_dec [c] [c]) as [_|X]; [|congruence]. auto.
      - destruct Hd as [->|Hd]; [congruence|]. destruct (list_eq_dec N.eq_dec [d] [c]) as [X|_]; [congruence|]. apply Hf2. exact Hd. }
    destruct (SG cs (fun c H => H)) as (segs & HG). clear SG.
    destruct (C75_counts A T m 0%N threads plan wc 1%R Rinv segs step Hm EU) as (e & E & LE & V); auto.
    - rewrite Ewc. apply Forall_map, Forall_forall. intros c Hc. cbn. constructor; [|constructor]. rewrite Forall_forall in SC. apply SC. exact Hc.
    - rewrite Ewc. apply Forall_map, Forall_forall. intros c Hc. cbn [fst]. destruct (HG c Hc) as (i & w & Pi & Ei & -> & Hw). split; [constructor; [intros []|constructor]|]. intros seg. split; [intros [<-|[]]; apply Hw; reflexivity|intros X; left; symmetry; apply Hw; exact X].
    - rewrite Ewc. apply Forall_map, Forall_forall. intros c Hc. cbn [fst]. intros u t w a b Eu Et Es. exfalso. rewrite EU in Eu. injection Eu as <-. rewrite EV in Et. destruct HS as (w0 & l & -> & _). cbn in Et. injection Et as <- _. apply (f_equal (@length _)) in Es. rewrite !app_length in Es. cbn in Es. lia.
    - exists e. rewrite EV in LE. split; [exact E|]. split; [exact LE|]. intros id Hid. change (nth id e (a_zero A) = 1%R). rewrite V by (rewrite EV; lia). rewrite Ewc. rewrite map_map. cbn [fst snd].
      (* one word has the piece *)
      assert (EQ : map (fun c => ta_mul T (ta_of T 1) (ta_mul T (weighted_count (t_marith A T) (a_zero A) 1%R (N.of_nat id) (segs [c])) (/ evidence (t_marith A T) (a_zero A) 1%R (segs [c]))%R)) cs =
        map (fun c => if list_eq_dec N.eq_dec (fst (nth id pieces ([], 0%R))) [c] then 1%R else 0%R) cs).
      { apply map_ext_in. intros c Hc. destruct (HG c Hc) as (i & w & Pi & Ei & -> & _). unfold weighted_count, evidence, likelihood, times, ksum. cbn. pose proof (exp_pos w) as EP. destruct (N.eqb_spec (N.of_nat id) (N.of_nat i)) as [X|X].
        - apply Nat2N.inj in X. subst i. rewrite (nth_error_nth _ _ _ Ei). cbn [fst]. destruct (list_eq_dec N.eq_dec [c] [c]) as [_|Y]; [|congruence]. field. lra.
        - destruct (list_eq_dec N.eq_dec (fst (nth id pieces ([], 0%R))) [c]) as [Y|_]; [|field; lra]. exfalso. apply X. f_equal. rewrite NoDup_nth_error in NDP. apply NDP; [rewrite map_length; lia|]. rewrite !nth_error_map, Ei. rewrite (nth_error_nth' _ ([], 0%R)) by lia. cbn. rewrite Y. reflexivity. }
      unfold wsum. rewrite EQ. clear EQ V.
      assert (OC : exists c, In c cs /\ fst (nth id pieces ([], 0%R)) = [c]).
      { destruct (single_text pieces (nth id pieces ([], 0%R)) HS) as (c & X & Hc); [|eauto]. destruct HS as (w0 & l & -> & _). destruct id as [|id]; [lia|]. cbn. apply nth_In. cbn in Hid. lia. }
      destruct OC as (c & Hc & ->). clear - ND Hc. assert (Z : forall l, ~ In c l -> fold_right (a_add A) (a_zero A) (map (fun c0 => if list_eq_dec N.eq_dec [c] [c0] then 1%R else 0%R) l) = 0%R).
      { induction l as [|d l IH]; intros NI; [reflexivity|]. cbn [map fold_right]. destruct (list_eq_dec N.eq_dec [c] [d]) as [X|_]; [exfalso; apply NI; left; congruence|]. rewrite IH by (intros Q; apply NI; right; exact Q). cbn. ring. }
      revert Hc. induction ND as [|d l NI NDl IH]; intros Hc; [destruct Hc|]. cbn [map fold_right]. destruct (list_eq_dec N.eq_dec [c] [d]) as [X|X].
      + injection X as <-. rewrite Z by exact NI. cbn. ring.
      + destruct Hc as [<-|Hc]; [congruence|]. rewrite (IH NDl Hc). cbn. ring.
  Qed.

  Lemma kept_all e l : forall i, (forall k, k < length l -> e (i + k) = 1%R) -> map fst (m_kept enough i e l) = map fst l.
  Proof.
    induction l as [|[t w] l IH]; intros i H; [reflexivity|]. cbn [m_kept]. pose proof (H 0 ltac:(cbn; lia)) as H0. rewrite Nat.add_0_r in H0. rewrite H0, Hen. cbn [map fst]. f_equal. apply IH. intros k Hk. rewrite <- (H (S k)) by (cbn; lia). f_equal. lia.
  Qed.
  Lemma sub_single n : forall step pieces, all_single pieces -> exists pieces', em_sub A nan enough rescore (e_step_on A T nan threads plan wc) n step pieces = Ok pieces' /\ all_single pieces'.
  Proof.
    induction n as [|n IH]; intros step pieces HS; cbn [em_sub]; [eauto|]. destruct (single_model _ HS) as (m & EM & Hm & EV & EU). destruct (single_counts step m pieces Hm EV EU HS) as (e & E & LE & V).
    unfold e_step_on at 1. rewrite EM, E. cbn [of_option bind].
    assert (HS' : all_single (m_step A nan enough rescore (fun i => nth i e nan) pieces)).
    { pose proof (single_length _ HS) as LP. destruct HS as (w0 & l & -> & P). cbn [length] in *. unfold m_step. cbn [map fst snd]. eexists _, _. split; [reflexivity|]. rewrite map_map. cbn [fst]. rewrite kept_all; [exact P|]. intros k Hk. rewrite (nth_indep _ nan 0%R) by lia. apply V. lia. }
    destruct (single_model _ HS') as (m' & EM' & _). rewrite EM'. cbn [lift_uni bind]. apply IH. exact HS'.
  Qed.
  Lemma prune_single step pieces : all_single pieces -> exists pieces', prune_on A T threads plan fuel pop tr wc step pieces = Some pieces' /\ all_single pieces'.
  Proof.
    intros HS. destruct (single_model _ HS) as (m & EM & Hm & EV & EU). destruct (C75_real_laws big shrink) as (_ & HW & HO & HN). unfold prune_on. rewrite EM.
    destruct (C75_prune A T m (fun _ => True) threads plan fuel pop (ut_vocab_size tr) wc step Hm EU HW HO HP) as (segs & alt & _ & HA & _ & R); auto.
    - rewrite Ewc. apply Forall_map, Forall_forall. intros c Hc. cbn. constructor; [|constructor]. rewrite Forall_forall in SC. apply SC. exact Hc.
    - rewrite EV. apply Forall_forall. intros p I. destruct (single_text _ p HS I) as (c & -> & Hc). split; [constructor; [|constructor]; rewrite Forall_forall in SC; apply SC; exact Hc|]. cbn. lia.
    - cbn zeta in R. rewrite EV in R. destruct R as [(_ & i & _ & X)|(new & keep & ranked & k & E & [_ PK] & NDK & _ & KA & RA & KU & _)]; [rewrite HN in X; discriminate|].
      rewrite E. exists new. split; [reflexivity|].
      assert (ALL : forall i, 0 < i < length pieces -> In i keep).
      { intros i Hi. destruct (nth_error pieces i) as [p|] eqn:Ep; [|apply nth_error_None in Ep; lia]. apply (KU i p); [lia|exact Ep|]. assert (Ip : In p (tl pieces)) by (destruct HS as (w0 & l & -> & _); destruct i; [lia|]; cbn in *; eapply nth_error_In; eauto).
        destruct (single_text _ p HS Ip) as (c & Ec & _). destruct p as [t w]. cbn in Ec. subst t. cbn [fst]. destruct (single_seg m pieces c i Hm EV HS ltac:(lia) (ex_intro _ w Ep)) as (w' & Hw). intros x y Hx Hy. apply Hw in Hx, Hy. congruence. }
      assert (NR : ranked = []).
      { destruct ranked as [|[i x] r]; [reflexivity|]. exfalso. destruct (RA i x (or_introl eq_refl)) as (Hi & _). apply NoDup_remove_2 in NDK. apply NDK. apply in_or_app. left. apply ALL. exact Hi. }
      subst ranked. rewrite firstn_nil in PK. cbn [map] in PK. rewrite app_nil_r in PK, NDK.
      assert (PM : Permutation keep (seq 1 (length cs))).
      { apply NoDup_Permutation; [exact NDK|apply seq_NoDup|]. intros i. rewrite in_seq. pose proof (single_length _ HS). split; [intros I; destruct (KA i I); lia|intros Hi; apply ALL; lia]. }
      destruct HS as (w0 & l & EP & P). subst pieces. inversion PK as [|? x0 ? l' E0 FK]; subst. cbn in E0. injection E0 as <-. exists w0, l'. split; [reflexivity|].
      assert (LL : length l = length cs) by (apply Permutation_length in P; rewrite !map_length in P; exact P).
      assert (ML : map fst l' = map (fun i => fst (nth (i - 1) l ([], 0%R))) keep).
      { assert (PI : Forall (fun i => 0 < i) keep) by (apply Forall_forall; intros i I; apply KA in I; lia). clear - FK PI. induction FK as [|i x keep l' Ei FK IH]; [reflexivity|]. inversion PI; subst. cbn [map]. rewrite IH by assumption. f_equal. destruct i as [|i]; [lia|]. cbn in Ei. replace (S i - 1) with i by lia. rewrite (nth_error_nth _ _ _ Ei). reflexivity. }
      rewrite ML. eapply Permutation_trans; [exact (Permutation_map (fun i => fst (nth (i - 1) l ([], 0%R))) PM)|]. eapply Permutation_trans; [|exact P]. rewrite <- LL. apply Permutation_refl'. apply nth_seq.
  Qed.

  Lemma rounds_single r : forall step pieces, all_single pieces -> after_rounds A nan enough rescore (e_step_on A T nan threads plan wc) (prune_on A T threads plan fuel pop tr wc) tr r step pieces <> None.
  Proof.
    induction r as [|r IH]; intros step pieces HS; cbn [after_rounds]; [discriminate|]. destruct (sub_single (ut_sub_iterations tr) step pieces HS) as (p1 & E1 & H1). rewrite E1. pose proof (single_length _ H1) as L1. destruct (Nat.leb_spec (length p1) (ut_vocab_size tr * 11 / 10)) as [X|_]; [lia|].
    destruct (prune_single (step + ut_sub_iterations tr) p1 H1) as (p2 & E2 & H2). rewrite E2. apply IH. exact H2.
  Qed.

  Context (suffix : str -> list (str * N)) (max_piece seed_size : nat) (LP : lists_parts suffix) (NZ : ~ In 0%N cs).
  Lemma seeds_single : all_single ((training_unk, nan) :: make_seed A T suffix max_piece seed_size wc).
  Proof.
    eexists _, _. split; [reflexivity|]. destruct (seeds_are A T suffix max_piece seed_size wc) as (k & E & _). rewrite E. unfold log_shares. rewrite map_map. cbn [fst].
    assert (NT : seed_texts suffix max_piece wc k = []).
    { destruct (seed_texts suffix max_piece wc k) as [|[t n] r] eqn:ET; [reflexivity|]. exfalso. destruct (texts_listed suffix max_piece wc k t n) as (x & Hs & L & Nt & _); [rewrite ET; left; reflexivity|].
      destruct (flat_inside wc t) as (w & n' & Hw & (a & b & EW)); [intros ->; cbn in L; lia|exact Nt|eapply LP; exact Hs|]. rewrite Ewc in Hw. apply in_map_iff in Hw. destruct Hw as (c & X & _). injection X as <- _. apply (f_equal (@length _)) in EW. rewrite !app_length in EW. cbn in EW. lia. }
    rewrite NT, app_nil_r. apply NoDup_Permutation.
    - unfold seed_chars. rewrite map_map. cbn [fst]. rewrite <- (map_map fst (fun c : char => [c])). apply FinFun.Injective_map_NoDup; [intros x y X; congruence|].
      apply (Permutation_NoDup (Permutation_map fst (Permutation_sym (sort_by_perm char_before (all_chars wc))))). unfold all_chars. apply all_chars_keys. constructor.
    - apply FinFun.Injective_map_NoDup; [intros x y X; congruence|exact ND].
    - intros t. split.
      + intros I. apply in_map_iff in I. destruct I as ([t' n] & <- & I). apply chars_in in I. destruct I as (c & -> & [_ (w & n' & Hw & Hc)] & _). cbn. rewrite Ewc in Hw. apply in_map_iff in Hw. destruct Hw as (d & X & Hd). injection X as <- _. destruct Hc as [<-|[]]. apply in_map_iff. eauto.
      + intros I. apply in_map_iff in I. destruct I as (c & <- & Hc). apply in_map_iff. exists ([c], char_total wc c). split; [reflexivity|]. apply chars_in. exists c. split; [reflexivity|]. split; [|reflexivity]. split; [intros ->; contradiction|]. exists [c], 1%N. split; [rewrite Ewc; apply in_map_iff; eauto|left; reflexivity].
  Qed.
End endless.

(** A training that never ends: three characters and room for three tokens, where the trainer finds no
    fault.  With the unknown token there are four pieces, more than 3 * 1.1, and
    characters are never dropped: after any number of rounds there is another one. *)
Theorem C75_endless_refuted : exists tr wc, ut_vocab_size tr = 3 /\ (forall arrange, any_order arrange -> length (required_chars arrange tr wc) = 3) /\
  forall big shrink missing nan enough rescore arrange suffix max_piece seed_size threads plan fuel pop,
    enough 1%R = true -> lists_parts suffix -> bag_pop pop -> 6 < fuel -> (forall step, leaves (plan step) = length (chunks threads wc)) ->
    let A := real_arith big in let T := real_tarith shrink in
    (forall r, after_rounds A nan enough rescore (e_step_on A T nan threads plan wc) (prune_on A T threads plan fuel pop tr wc) tr r 0 ((training_unk, nan) :: make_seed A T suffix max_piece seed_size wc) <> None) /\
    (forall r m sp, uni_do_train A T missing nan enough rescore arrange suffix max_piece seed_size threads plan fuel pop r tr wc <> Ok (m, sp)).
Proof.
  set (cs := [97; 98; 99]%N). exists (mkUt 3 2 [] [] None), (map (fun c => ([c], 1%N)) cs). split; [reflexivity|]. split.
  - intros arrange AO. unfold required_chars. rewrite <- (Permutation_length (AO _)). reflexivity.
  - intros big shrink missing nan enough rescore arrange suffix max_piece seed_size threads plan fuel pop Hen LP HP Hf LV A T. set (wc := map (fun c => ([c], 1%N)) cs) in *. set (tr := mkUt 3 2 [] [] None).
    assert (ND : NoDup cs) by (repeat constructor; cbn; intuition discriminate). assert (SC : text_ok cs) by (repeat constructor). assert (NZ : ~ In 0%N cs) by (cbn; intuition discriminate).
    assert (HL : ut_vocab_size tr * 11 / 10 <= length cs) by (vm_compute; lia).
    pose proof (seeds_single big shrink nan enough rescore threads plan fuel cs ND wc eq_refl Hen Hf LV tr HL suffix max_piece seed_size LP NZ) as HS.
    assert (H1 : forall r step pieces, all_single cs pieces -> after_rounds A nan enough rescore (e_step_on A T nan threads plan wc) (prune_on A T threads plan fuel pop tr wc) tr r step pieces <> None).
    { intros r step pieces. apply (rounds_single big shrink nan enough rescore threads plan fuel pop cs ND SC wc eq_refl Hen HP Hf LV tr HL). }
    split; [intros r; apply H1; exact HS|]. intros r m sp X. unfold uni_do_train, uni_train in X. destruct (ut_vocab_size tr <? length (required_chars arrange tr wc)); [discriminate|]. destruct (uni_from A _ (Some 0%N) false); cbn [lift_uni bind] in X; try discriminate.
    assert (NL : forall r step pieces, all_single cs pieces -> forall p, em_loop A nan enough rescore (e_step_on A T nan threads plan wc) (prune_on A T threads plan fuel pop tr wc) r tr step pieces <> Ok p).
    { clear X HS. induction r0 as [|r0 IH]; intros step pieces HS p X; cbn [em_loop] in X; [discriminate|]. destruct (sub_single big shrink nan enough rescore threads plan fuel cs ND SC wc eq_refl Hen Hf LV tr HL (ut_sub_iterations tr) step pieces HS) as (p1 & E1 & S1). fold A T in E1. rewrite E1 in X. cbn [bind] in X. pose proof (single_length shrink enough rescore threads plan fuel cs wc Hen Hf LV tr HL p1 S1) as L1. 
      destruct (Nat.leb_spec (length p1) (ut_vocab_size tr * 11 / 10)) as [Q|_]; [rewrite L1 in Q; vm_compute in Q; lia|].
      destruct (prune_single big shrink nan enough rescore threads plan fuel pop cs ND SC wc eq_refl Hen HP Hf LV tr HL (step + ut_sub_iterations tr) p1 S1) as (p2 & E2 & S2). fold A T in E2. rewrite E2 in X. cbn [of_option bind] in X. destruct (uni_from A p2 (Some 0%N) false); cbn [lift_uni bind] in X; try discriminate. eapply IH; eauto. }
    destruct (em_loop _ _ _ _ _ _ _ _ _ _) as [p| |] eqn:EL; try discriminate. eapply NL; [exact HS|exact EL].
Qed.

(** There are a suffix array, a queue and a schedule of this kind. *)
Definition first_out (l : list (hypothesis R)) : option (hypothesis R * list (hypothesis R)) := match l with [] => None | h :: r => Some (h, r) end.
Example C75_endless_ex : lists_parts ex_suffix /\ bag_pop first_out /\ leaves (RNode RLeaf (RNode RLeaf RLeaf)) = length (chunks 3 (map (fun c => ([c], 1%N)) [97; 98; 99]%N)).
Proof. split; [apply ex_suffix_ok|]. split; [|reflexivity]. split.
  - intros [|h r] E; [reflexivity|discriminate].
  - intros [|h0 r0] h r E; [discriminate|]. injection E as -> ->. apply Permutation_refl.
Qed.
