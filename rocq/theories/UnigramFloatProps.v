(** C42, C43, C58 for the arithmetic of the code: IEEE 754 binary64, rounding to
    nearest even, as formalised by Flocq.  NaN payloads are not distinguished. *)
From Coq Require Import ZArith Reals Lra.
From Flocq Require Import Core BinarySingleNaN.
From Verif Require Import Base AMap Utf8 EncodingModel BpeModel TrieModel UnigramModel UnigramSpec UnigramProofs UnigramProofs4 UnigramProps.

Definition f64 := binary_float 53 1024.
Global Instance prec53 : Prec_gt_0 53 := eq_refl.
Global Instance emax1024 : Prec_lt_emax 53 1024 := eq_refl.

(** [K_UNK_PENALTY], model.rs:78: 10.0. *)
Definition f64_ten : f64 := binary_normalize 53 1024 _ _ mode_NE 10 0 false.
Definition f64_add (a b : f64) : f64 := Bplus mode_NE a b.
Definition f64_gtb (a b : f64) : bool := match Bcompare a b with Some Gt => true | _ => false end.
Definition f64_arith : arith f64 :=
  mkArith (B754_zero false) (B754_infinity false) f64_add f64_gtb (fun x => Bminus mode_NE x f64_ten).

(** Log-probabilities: at most 0, or minus infinity; not NaN. *)
Definition log_prob (x : f64) : Prop :=
  match x with
  | B754_zero _ => True
  | B754_infinity neg => neg = true
  | B754_nan => False
  | B754_finite neg _ _ _ => neg = true
  end.

Definition minf : f64 := B754_infinity true.

Lemma log_prob_cases x : log_prob x -> x = minf \/ (is_finite x = true /\ (B2R x <= 0)%R).
Proof.
  destruct x as [b|b| |b m e H]; cbn; intros L; try contradiction.
  - right. split; [reflexivity|lra].
  - subst b. left. reflexivity.
  - subst b. right. split; [reflexivity|]. unfold F2R. cbn. pose proof (bpow_gt_0 radix2 e). pose proof (IZR_lt (Z.neg m) 0 eq_refl). nra.
Qed.

Lemma log_prob_finite x : is_finite x = true -> (B2R x <= 0)%R -> log_prob x.
Proof.
  destruct x as [b|b| |b m e H]; cbn; intros F L; try discriminate; auto. destruct b; [reflexivity|]. exfalso. unfold F2R in L. cbn in L. pose proof (bpow_gt_0 radix2 e). pose proof (IZR_lt 0 (Z.pos m) eq_refl). nra.
Qed.

Lemma gtb_minf_l b : f64_gtb minf b = false.
Proof. unfold f64_gtb, minf. destruct b as [[]|[]| |[]]; reflexivity. Qed.
Lemma gtb_minf_r a : is_finite a = true -> f64_gtb a minf = true.
Proof. destruct a as [[]|[]| |[]]; cbn; try discriminate; reflexivity. Qed.
Lemma gtb_finite a b : is_finite a = true -> is_finite b = true -> f64_gtb a b = Rlt_bool (B2R b) (B2R a).
Proof.
  intros Fa Fb. unfold f64_gtb. rewrite Bcompare_correct by assumption. unfold Rlt_bool. rewrite (Rcompare_sym (B2R a) (B2R b)). destruct (Rcompare (B2R b) (B2R a)); reflexivity.
Qed.

Lemma add_minf_l b : log_prob b -> f64_add minf b = minf.
Proof. destruct b as [b|b| |b m e H]; cbn; intros L; try contradiction; subst; reflexivity. Qed.
Lemma add_minf_r b : log_prob b -> f64_add b minf = minf.
Proof. destruct b as [b|b| |b m e H]; cbn; intros L; try contradiction; subst; reflexivity. Qed.

Notation rnd := (round radix2 (SpecFloat.fexp 53 1024) (round_mode mode_NE)).

Lemma rnd_le a b : (a <= b)%R -> (rnd a <= rnd b)%R.
Proof. intros. apply round_le; [typeclasses eauto|typeclasses eauto|assumption]. Qed.
Lemma rnd_0 : rnd 0 = 0%R.
Proof. apply round_0. typeclasses eauto. Qed.

(** The sum of two finite log-probabilities is their rounded sum, or minus infinity. *)
Lemma add_cases a b : is_finite a = true -> is_finite b = true -> (B2R a <= 0)%R -> (B2R b <= 0)%R ->
  (is_finite (f64_add a b) = true /\ B2R (f64_add a b) = rnd (B2R a + B2R b) /\ (- bpow radix2 1024 < rnd (B2R a + B2R b))%R) \/
  (f64_add a b = minf /\ (rnd (B2R a + B2R b) <= - bpow radix2 1024)%R).
Proof.
  intros Fa Fb La Lb. unfold f64_add. pose proof (Bplus_correct 53 1024 _ _ mode_NE a b Fa Fb) as H.
  assert (N : (rnd (B2R a + B2R b) <= 0)%R) by (rewrite <- rnd_0; apply rnd_le; lra).
  destruct (Rlt_bool_spec (Rabs (rnd (B2R a + B2R b))) (bpow radix2 1024)) as [L|L].
  - destruct H as (H1 & H2 & _). left. split; [exact H2|]. split; [exact H1|]. rewrite Rabs_left1 in L by exact N. lra.
  - right. rewrite Rabs_left1 in L by exact N. split; [|lra]. destruct H as [H1 H2].
    assert (S : Bsign a = true).
    { destruct (Bsign a) eqn:Sa; [reflexivity|exfalso]. symmetry in H2.
      assert (Z : forall x : f64, is_finite x = true -> Bsign x = false -> (B2R x <= 0)%R -> B2R x = 0%R).
      { intros x Fx Sx Lx. apply log_prob_finite in Lx; [|exact Fx]. destruct x as [|? | |s ? ? ?]; cbn in *; try discriminate; try reflexivity. congruence. }
      rewrite (Z a), (Z b), Rplus_0_r, rnd_0 in L by assumption. pose proof (bpow_gt_0 radix2 1024). lra. }
    rewrite S in H1. cbn in H1. unfold minf. destruct (Bplus mode_NE a b) as [|[]| |]; cbn in H1; try discriminate; reflexivity.
Qed.

Lemma add_comm a b : f64_add a b = f64_add b a.
Proof.
  unfold f64_add. destruct a as [[]|[]| |sa ma ea Ha], b as [[]|[]| |sb mb eb Hb]; try reflexivity. cbn. rewrite (Z.min_comm eb ea). unfold Fplus_naive. rewrite Z.add_comm. reflexivity.
Qed.

Lemma add_ok a b : log_prob a -> log_prob b -> log_prob (f64_add a b).
Proof.
  intros La Lb. destruct (log_prob_cases a La) as [->|[Fa Ra]]; [rewrite add_minf_l by exact Lb; reflexivity|].
  destruct (log_prob_cases b Lb) as [->|[Fb Rb]]; [rewrite add_minf_r by exact La; reflexivity|].
  destruct (add_cases a b Fa Fb Ra Rb) as [(F & E & _)|[-> _]]; [|reflexivity]. apply log_prob_finite; [exact F|]. rewrite E, <- rnd_0. apply rnd_le. lra.
Qed.

Lemma add_zero a : is_finite a = true -> is_finite (f64_add a (B754_zero false)) = true /\ B2R (f64_add a (B754_zero false)) = B2R a.
Proof. destruct a as [[]|[]| |sa ma ea Ha]; cbn; try discriminate; auto. Qed.

(** The laws hold of log-probabilities. *)
Theorem C42_f64_laws : score_laws f64_arith log_prob.
Proof.
  constructor; cbn [a_zero a_add a_gtb f64_arith].
  - exact I.
  - apply add_ok.
  - intros a b c La Lb Lc G1 G2. destruct (log_prob_cases a La) as [->|[Fa Ra]]; [apply gtb_minf_l|]. destruct (log_prob_cases b Lb) as [->|[Fb Rb]]; [rewrite gtb_minf_r in G1 by exact Fa; discriminate|].
    destruct (log_prob_cases c Lc) as [->|[Fc Rc]]; [rewrite gtb_minf_r in G2 by exact Fb; discriminate|]. rewrite gtb_finite in * by assumption.
    destruct (Rlt_bool_spec (B2R b) (B2R a)); [discriminate|]. destruct (Rlt_bool_spec (B2R c) (B2R b)); [discriminate|]. apply Rlt_bool_false. lra.
  - intros a b La Lb G. destruct (log_prob_cases a La) as [->|[Fa Ra]]; [rewrite gtb_minf_l in G; discriminate|]. destruct (log_prob_cases b Lb) as [->|[Fb Rb]]; [apply gtb_minf_l|].
    rewrite gtb_finite in * by assumption. destruct (Rlt_bool_spec (B2R b) (B2R a)); [|discriminate]. apply Rlt_bool_false. lra.
  - intros a b w La Lb Lw G. destruct (log_prob_cases w Lw) as [->|[Fw Rw]]; [rewrite add_minf_l by exact La; apply gtb_minf_l|].
    destruct (log_prob_cases a La) as [->|[Fa Ra]]; [rewrite add_minf_r by exact Lw; apply gtb_minf_l|].
    destruct (log_prob_cases b Lb) as [->|[Fb Rb]]; [rewrite gtb_minf_r in G by exact Fa; discriminate|]. rewrite gtb_finite in G by assumption.
    destruct (Rlt_bool_spec (B2R b) (B2R a)) as [|L]; [discriminate|]. assert (M : (rnd (B2R w + B2R a) <= rnd (B2R w + B2R b))%R) by (apply rnd_le; lra).
    destruct (add_cases w a Fw Fa Rw Ra) as [(F1 & E1 & B1)|[-> _]]; [|apply gtb_minf_l]. destruct (add_cases w b Fw Fb Rw Rb) as [(F2 & E2 & _)|[_ B2]]; [|lra].
    rewrite gtb_finite by assumption. rewrite E1, E2. apply Rlt_bool_false. exact M.
  - intros a b _ _. apply add_comm.
  - intros a b La Lb. destruct (log_prob_cases a La) as [->|[Fa Ra]]; [rewrite (add_minf_l (B754_zero false) I); rewrite !gtb_minf_l; reflexivity|].
    destruct (add_zero a Fa) as [F1 E1]. destruct (log_prob_cases b Lb) as [->|[Fb Rb]]; [rewrite (add_minf_l (B754_zero false) I); rewrite !gtb_minf_r by assumption; reflexivity|].
    destruct (add_zero b Fb) as [F2 E2]. rewrite !gtb_finite by assumption. rewrite E1, E2. reflexivity.
Qed.

Lemma ten_facts : is_finite f64_ten = true /\ B2R f64_ten = 10%R.
Proof.
  assert (E : B2SF f64_ten = SpecFloat.S754_finite false 5629499534213120 (-49)) by (vm_compute; reflexivity).
  rewrite <- SF2R_B2SF, <- is_finite_SF_B2SF, E. split; [reflexivity|]. unfold SF2R, F2R. cbn. lra.
Qed.

Lemma minus_plus (x y : f64) : Bminus mode_NE x y = f64_add x (Bopp y).
Proof. unfold f64_add. destruct x as [[]|[]| |], y as [[]|[]| |]; reflexivity. Qed.

(** The score of unknown characters is a log-probability if the lowest score is. *)
Lemma pen_ok x : log_prob x -> log_prob (a_pen f64_arith x).
Proof.
  intros L. cbn [a_pen f64_arith].
  rewrite minus_plus. assert (FT : is_finite (Bopp f64_ten) = true) by (rewrite is_finite_Bopp; apply ten_facts).
  assert (RT : (B2R (Bopp f64_ten) <= 0)%R) by (rewrite B2R_Bopp, (proj2 ten_facts); lra).
  apply add_ok; [exact L|]. apply log_prob_finite; assumption.
Qed.

Lemma gtb_inf x : log_prob x -> f64_gtb (B754_infinity false) x = true.
Proof. destruct x as [[]|[]| |[]]; cbn; intros H; try contradiction; try discriminate; reflexivity. Qed.

Lemma from_loop_min vocab : Forall (fun e => log_prob (snd e)) vocab -> forall id ids trie lo r, (lo = B754_infinity false \/ log_prob lo) ->
  from_loop f64_arith id vocab ids trie lo = r -> (vocab = [] /\ snd r = lo) \/ log_prob (snd r).
Proof.
  induction vocab as [|[t w] vocab IH]; intros F id ids trie lo r Hlo E; cbn [from_loop] in E; [left; subst; auto|]. right. inversion F as [|? ? Hw F']; subst. cbn in Hw.
  set (lo' := if a_gtb f64_arith lo w then w else lo) in *.
  assert (L : log_prob lo').
  { unfold lo'. destruct (a_gtb f64_arith lo w) eqn:G; [exact Hw|]. destruct Hlo as [->|H]; [|exact H]. cbn in G. rewrite gtb_inf in G by exact Hw. discriminate. }
  edestruct IH as [[-> X]|X]; [exact F'|right; exact L|reflexivity| |exact X]. rewrite X. exact L.
Qed.

(** For a vocabulary of log-probabilities, the model as built satisfies the
    conditions of C42, C43 and C58. *)
Theorem C42_f64_scores : forall vocab unk fb m, vocab <> [] -> Forall (fun e => log_prob (snd e)) vocab -> Forall (fun e => text_ok (fst e)) vocab ->
  uni_from f64_arith vocab unk fb = Ok m -> made f64_arith m /\ scores_ok f64_arith log_prob m.
Proof.
  intros vocab unk fb m NE F T E. split.
  - exists vocab, unk, fb, m, (u_min m). split; [exact E|]. split; [exact T|]. destruct m. reflexivity.
  - split; [exact C42_f64_laws|]. unfold uni_from in E. destruct (from_loop f64_arith 0 vocab [] tnode0 (a_inf f64_arith)) as [[ids trie] lo] eqn:EL.
    pose proof (from_loop_min vocab F 0%N [] tnode0 _ _ (or_introl eq_refl) EL) as H. cbn [snd] in H. destruct H as [[-> _]|H]; [congruence|].
    assert (M : m = mkUni ids vocab trie lo unk (N.of_nat (length vocab) + 1) (N.of_nat (length vocab) + 2) true fb).
    { destruct unk as [k|]; [destruct (is_nil vocab); [discriminate|]; destruct (N.leb _ k); [discriminate|]|]; injection E as <-; reflexivity. }
    subst m. cbn [u_vocab unk_score u_min]. split; [|apply pen_ok; exact H]. intros t w Hin. rewrite Forall_forall in F. apply (F _ Hin).
Qed.

(** The result for the code's arithmetic. *)
Theorem C42_f64 : forall vocab unk fb m s, vocab <> [] -> Forall (fun e => log_prob (snd e)) vocab -> Forall (fun e => text_ok (fst e)) vocab ->
  uni_from f64_arith vocab unk fb = Ok m -> text_ok s -> s <> [] ->
  (exists seg, uni_encode f64_arith m None s = Ok (pieces_of m seg) /\ best f64_arith m s seg) \/
  (uni_encode f64_arith m None s = Err EMissingUnkId /\ u_unk m = None /\ exists c, In c s /\ ~ In [c] (map fst (u_vocab m))).
Proof.
  intros vocab unk fb m s NE F T E Hs Ns. destruct (C42_f64_scores vocab unk fb m NE F T E) as [Hm HS]. exact (C42_optimised f64_arith log_prob m s Hm HS Hs Ns).
Qed.

Theorem C42_f64_viterbi : forall vocab u fb m s, vocab <> [] -> Forall (fun e => log_prob (snd e)) vocab -> Forall (fun e => text_ok (fst e)) vocab ->
  uni_from f64_arith vocab (Some u) fb = Ok m -> text_ok s ->
  exists seg, encode_unoptimized f64_arith m ByViterbi s = Ok (pieces_of m seg) /\ best f64_arith m s seg.
Proof.
  intros vocab u fb m s NE F T E Hs. destruct (C42_f64_scores vocab (Some u) fb m NE F T E) as [Hm HS]. apply (C42_viterbi f64_arith log_prob m s u Hm HS Hs).
  unfold uni_from in E. destruct (from_loop f64_arith 0 vocab [] tnode0 (a_inf f64_arith)) as [[ids trie] lo]. destruct (is_nil vocab); [discriminate|]; destruct (N.leb _ u); [discriminate|]; injection E as <-; reflexivity.
Qed.

Theorem C43_f64 : forall vocab u fb m s sampling pieces, vocab <> [] -> Forall (fun e => log_prob (snd e)) vocab -> Forall (fun e => text_ok (fst e)) vocab ->
  uni_from f64_arith vocab (Some u) fb = Ok m -> text_ok s -> (forall c, sampling = Some c -> chooser_ok c) -> uni_encode f64_arith m sampling s = Ok pieces ->
  concat pieces = s /\ Forall (fun x => x <> []) pieces.
Proof.
  intros vocab u fb m s sampling pieces NE F T E Hs HC EP. destruct (C42_f64_scores vocab (Some u) fb m NE F T E) as [Hm HS].
  apply (C43_pieces f64_arith log_prob m s sampling pieces Hm HS Hs); [|exact EP]. intros c Ec. split; [auto|]. exists u.
  unfold uni_from in E. destruct (from_loop f64_arith 0 vocab [] tnode0 (a_inf f64_arith)) as [[ids trie] lo]. destruct (is_nil vocab); [discriminate|]; destruct (N.leb _ u); [discriminate|]; injection E as <-; reflexivity.
Qed.

(** A vocabulary with scores 0, -0.5 and -1.25. *)
Definition f64_of (m e : Z) : f64 := binary_normalize 53 1024 _ _ mode_NE m e false.
Example C42_f64_ex : exists m, uni_from f64_arith [([63]%N, f64_of 0 0); ([97]%N, f64_of (-1) (-1)); ([97; 98]%N, f64_of (-5) (-2))] (Some 0%N) false = Ok m /\
  uni_encode f64_arith m None [97; 97; 98]%N = Ok [[97]; [97; 98]]%N.
Proof. eexists. split; [reflexivity|]. vm_compute. reflexivity. Qed.
Example C42_f64_ex_ok : Forall log_prob [f64_of 0 0; f64_of (-1) (-1); f64_of (-5) (-2)].
Proof. repeat constructor. Qed.
