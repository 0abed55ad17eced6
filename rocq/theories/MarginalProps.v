(** C74: expected counts and samples. *)
From Coq Require Import Permutation Ring_theory QArith Qcanon.
From Verif Require Import Base StrBytes ListFacts AMap Utf8 EncodingModel BpeWordModel BpeWordProofs BpeModel TrieModel UnigramModel UnigramSpec UnigramProofs UnigramProofs2 UnigramProofs3 UnigramProofs4 NBestSpec NBestProofs MarginalModel MarginalSpec MarginalProofs MarginalProofs2 MarginalProofs3 MarginalProofs4.
Local Open Scope nat_scope.

Section ready.
  Context {W : Type} (A : arith W) (m : unigram W) (s : str) (Hm : made A m) (Hs : text_ok s).

  Lemma lattice_ready : exists la L, populate_nodes A m s = Ok la /\ holds A m s la L /\ all_to A m s (blen s) L /\ NoDup L /\
    (covered m s -> forall p c q, s = p ++ c :: q -> exists it, In (p, it) L /\ fst (fst it) = [c]).
  Proof.
    pose proof (made_wf A m Hm) as Hwf. destruct (populate_once A m Hwf s Hs) as (la & L & E & H & AL & ND). exists la, L. repeat (split; [assumption|]). intros HC p c q Es.
    assert (CH : Forall (fun c => (exists u, u_unk m = Some u) \/ In [c] (map fst (u_vocab m))) s) by (apply Forall_forall; intros d Hd; destruct HC as [HC|HC]; auto). apply (char_place A m s (fun _ => True) (fun _ _ _ => I) L AL CH p c q Es).
  Qed.
End ready.

(** A text has finitely many segmentations, so the sums below are over all of them. *)
Theorem C74_finite : forall {W} (A : arith W) m s, made A m -> exists segs, all_segmentations A m s segs.
Proof. intros W A m s Hm. eexists. apply (enum_spec A m (made_wf A m Hm) (length s) s). reflexivity. Qed.

(** [populate_marginal] never panics when there is a cell for every token,
    whatever the arithmetic does. *)
Theorem C74_total : forall {W K} (A : arith W) (M : marith W K) m s freq expected, made A m -> text_ok s -> length (u_vocab m) <= length expected ->
  exists la expected' r, populate_nodes A m s = Ok la /\ populate_marginal A M la freq expected = Ok (expected', r) /\ length expected' = length expected.
Proof.
  intros W K A M m s freq expected Hm Hs LE. destruct (lattice_ready A m s Hm Hs) as (la & L & E & HH & AL & ND & _). destruct (marginal_total A M m (made_wf A m Hm) s la L HH AL freq expected LE) as (e' & r & X & Y). eauto 8.
Qed.

(** With exact arithmetic, the counts grow by [freq] times the expected number of
    uses of each token under the posterior, and the result is [freq] times the
    logarithm of the likelihood of the text. *)
Theorem C74_expected : forall {W K} (A : arith W) (M : marith W K) zero one inv m s la segs freq expected, exact_marith A M zero one inv ->
  made A m -> text_ok s -> covered m s -> unk_apart m s -> all_segmentations A m s segs -> populate_nodes A m s = Ok la -> length (u_vocab m) <= length expected ->
  exists expected' z, populate_marginal A M la freq expected = Ok (expected', ma_scale M freq z) /\ ma_exp M z = evidence M zero one segs /\ length expected' = length expected /\
    forall id k, nth_error expected (N.to_nat id) = Some k ->
      nth_error expected' (N.to_nat id) = Some (ma_plus M k (ma_mul M freq (ma_mul M (weighted_count M zero one id segs) (inv (evidence M zero one segs))))).
Proof.
  intros W K A M zero one inv m s la segs freq expected HX Hm Hs HC HU AS EL LE. destruct (lattice_ready A m s Hm Hs) as (la' & L & E & HH & AL & ND & P). rewrite EL in E. injection E as <-.
  apply (marginal_spec A M zero one inv HX m (made_wf A m Hm) s la L HH AL ND (P HC) HU freq expected segs LE AS).
Qed.

(** The likelihood of a text can be divided by: what is divided adds up to 1. *)
Theorem C74_posterior : forall {W K} (A : arith W) (M : marith W K) zero one inv m s segs, exact_marith A M zero one inv ->
  made A m -> text_ok s -> covered m s -> unk_apart m s -> all_segmentations A m s segs ->
  ksum M zero (map (fun seg => ma_mul M (likelihood M one seg) (inv (evidence M zero one segs))) segs) = one.
Proof.
  intros W K A M zero one inv m s segs HX Hm Hs HC HU AS. destruct (lattice_ready A m s Hm Hs) as (la & L & E & HH & AL & ND & P). pose proof (made_wf A m Hm) as Hwf.
  pose proof (mass_inv A M zero one inv HX m Hwf s la L HH AL ND (P HC) HU) as I. rewrite <- (evidence_mass A M zero one inv HX m Hwf s segs AS) in I.
  transitivity (ma_mul M (inv (evidence M zero one segs)) (ksum M zero (map (likelihood M one) segs))).
  - rewrite <- (ksum_scale A M zero one inv HX). apply ksum_ext. intros seg _. apply (SRmul_comm (xm_ring _ _ _ _ _ HX)).
  - rewrite (SRmul_comm (xm_ring _ _ _ _ _ HX)). exact I.
Qed.

(** Samples: with a smoothing parameter of 1, the chance of a path is the posterior of
    the segmentation it reads as; the paths that are drawn are those the loop
    returns; and every segmentation is drawn. *)
Theorem C74_sample : forall {W K} (A : arith W) (M : marith W K) zero one inv m s la segs theta, exact_marith A M zero one inv ->
  made A m -> text_ok s -> covered m s -> unk_apart m s -> all_segmentations A m s segs -> populate_nodes A m s = Ok la -> (forall x, ma_scale M theta x = x) ->
  (forall path c, chance A M zero inv la theta path c ->
     (exists seg, In seg segs /\ reads la path seg /\ c = ma_mul M (likelihood M one seg) (inv (evidence M zero one segs))) /\ exists pick, lat_sample la pick = Ok path) /\
  (forall pick path, lat_sample la pick = Ok path -> exists c, chance A M zero inv la theta path c) /\
  (forall seg, In seg segs -> exists path c, reads la path seg /\ chance A M zero inv la theta path c /\
     forall path' c', chance A M zero inv la theta path' c' -> reads la path' seg -> path' = path).
Proof.
  intros W K A M zero one inv m s la segs theta HX Hm Hs HC HU AS EL Ht. destruct (lattice_ready A m s Hm Hs) as (la' & L & E & HH & AL & ND & P). rewrite EL in E. injection E as <-. specialize (P HC). pose proof (made_wf A m Hm) as Hwf.
  rewrite (evidence_mass A M zero one inv HX m Hwf s segs AS). destruct AS as [ND2 IFF].
  pose proof (chance_value A M zero one inv HX m Hwf s la L HH AL ND P HU theta Ht) as CV. pose proof (chance_exists A M zero one inv HX m Hwf s la L HH AL ND P HU theta Ht) as CE.
  split; [|split].
  - intros path c CH. destruct (CV _ _ CH) as (seg & C & V). split.
    + exists seg. split; [apply IFF; eapply chain_segmentation; eauto|]. split; [eapply chain_reads; eauto|exact V].
    + pose proof (chain_walk s L _ _ _ C [] (walk_nil L)) as HW. rewrite app_nil_r in HW. rewrite <- (rev_involutive path). eapply walk_sampled; eauto.
  - intros pick path E. assert (PO : path_ok s L path) by (eapply lat_sample_ok; eauto); destruct PO as (seg & C). eauto.
  - intros seg Hseg. apply IFF in Hseg. destruct Hseg as [GF GT]. destruct (chain_make A m s L AL seg [] GF) as (ids & CI); [symmetry; exact GT|].
    exists ids. eexists. split; [eapply chain_reads; eauto|]. split; [apply CE; exact CI|]. intros path' c' CH RD. destruct (CV _ _ CH) as (seg' & C' & _).
    assert (ES : seg' = seg) by (pose proof (chain_reads A m s la L HH _ _ _ C') as R'; clear - RD R'; revert seg RD; induction R' as [|k it p sg (E1 & n & E2 & E3 & E4) R' IH]; intros seg H'; inversion H' as [|? it' ? seg2 (F1 & n' & F2 & F3 & F4) H2]; subst; [reflexivity|]; rewrite E2 in F2; injection F2 as <-; rewrite E1 in F1; injection F1 as F1; destruct it as [[? ?] ?], it' as [[? ?] ?]; cbn in *; subst; f_equal; apply IH; assumption).
    subst seg'. eapply chain_inj; eauto.
Qed.

(** ** An instance: positive fractions for scores, rational numbers for counts *)
Local Open Scope Qc_scope.
Definition frac : Type := (positive * positive)%type.
Definition frac_exp (x : frac) : Qc := Q2Qc (Zpos (fst x) # snd x).
Definition frac_mul (x y : frac) : frac := ((fst x * fst y)%positive, (snd x * snd y)%positive).
Definition frac_gtb (x y : frac) : bool := Pos.ltb (fst y * snd x) (fst x * snd y).
(** Logarithms are left out: 0 is 1, adding is multiplying, twice is the square. *)
Definition frac_arith : arith frac := mkArith (1, 1)%positive (1000, 1)%positive frac_mul frac_gtb (fun x => frac_mul x (1, 4)%positive).
Definition frac_marith : marith frac Qc := mkMarith
  (fun _ _ => false)
  (fun x y => (fst x * snd y + fst y * snd x, snd x * snd y)%positive)
  (fun x y => (fst x * snd y, snd x * fst y)%positive)
  frac_exp (fun k x => if Qc_eq_dec k 1 then x else frac_mul x x) Qcmult Qcplus.

Lemma qc_mul (a b : Q) : Q2Qc a * Q2Qc b = Q2Qc (a * b).
Proof. apply Qc_is_canon. unfold Qcmult, Q2Qc, this. rewrite !Qred_correct. reflexivity. Qed.
Lemma qc_plus (a b : Q) : Q2Qc a + Q2Qc b = Q2Qc (a + b).
Proof. apply Qc_is_canon. unfold Qcplus, Q2Qc, this. rewrite !Qred_correct. reflexivity. Qed.
Lemma qc_inv (a : Q) : Qcinv (Q2Qc a) = Q2Qc (/ a).
Proof. apply Qc_is_canon. unfold Qcinv, Q2Qc, this. rewrite !Qred_correct. reflexivity. Qed.
Lemma frac_laws : exact_marith frac_arith frac_marith 0 1 Qcinv.
Proof.
  constructor.
  - constructor; intros; cbn [ma_plus ma_mul frac_marith]; ring.
  - reflexivity.
  - intros [a b] [c d]. cbn [ma_exp ma_mul frac_marith a_add frac_arith]. unfold frac_exp. rewrite qc_mul. reflexivity.
  - reflexivity.
  - intros [a b] [c d]. cbn [ma_exp ma_plus ma_near frac_marith]. unfold frac_exp. rewrite qc_plus. reflexivity.
  - intros [a b] [c d]. cbn [ma_exp ma_mul ma_sub frac_marith]. unfold frac_exp. rewrite qc_inv, qc_mul. reflexivity.
  - intros [a b]. cbn [ma_exp ma_mul frac_marith]. unfold frac_exp. rewrite qc_inv, qc_mul. apply Q2Qc_eq_iff. unfold Qeq. cbn. lia.
Qed.
Lemma frac_one : forall x, ma_scale frac_marith 1 x = x.
Proof. intros x. cbn. destruct (Qc_eq_dec 1 1); [reflexivity|congruence]. Qed.

(** "a", "b", "c" and "bc", each with likelihood 1/2; the text "abc". *)
Definition ex_half : frac := (1, 2)%positive.
Definition ex_abc : list (str * frac) := [([97%N], ex_half); ([98%N], ex_half); ([99%N], ex_half); ([98%N; 99%N], ex_half)].
Definition ex_model : unigram frac := Eval vm_compute in match uni_from frac_arith ex_abc None false with Ok m => m | _ => mkUni [] [] tnode0 ex_half None 0%N 0%N true false end.
Definition ex_text : str := [97; 98; 99]%N.
Definition ex_lattice : lattice frac := Eval vm_compute in match populate_nodes frac_arith ex_model ex_text with Ok la => la | _ => mkLat [] [] [] [] end.

Lemma ex_made : made frac_arith ex_model.
Proof. exists ex_abc, None, false. eexists _, _. split; [vm_compute; reflexivity|]. split; [repeat constructor|reflexivity]. Qed.
Lemma ex_lat : populate_nodes frac_arith ex_model ex_text = Ok ex_lattice.
Proof. vm_compute. reflexivity. Qed.
Lemma ex_apart : unk_apart ex_model ex_text.
Proof. intros u t w a b H. discriminate. Qed.
Definition ex_segs : list (list (str * N * frac)) :=
  [[([97], 0, ex_half); ([98], 1, ex_half); ([99], 2, ex_half)]; [([97], 0, ex_half); ([98; 99], 3, ex_half)]]%N.
Lemma ex_all : all_segmentations frac_arith ex_model ex_text ex_segs.
Proof.
  destruct (enum_spec frac_arith ex_model (made_wf _ _ ex_made) 3 ex_text ltac:(cbn; lia)) as [D I]. 
  assert (E : enum frac_arith ex_model 3 ex_text = ex_segs) by (vm_compute; reflexivity). rewrite E in D, I. split; assumption.
Qed.

(** "b" is expected 1/3 times in "abc". *)
Example C74_example : made frac_arith ex_model /\ text_ok ex_text /\ covered ex_model ex_text /\ unk_apart ex_model ex_text /\ all_segmentations frac_arith ex_model ex_text ex_segs /\
  exact_marith frac_arith frac_marith 0 1 Qcinv /\ populate_nodes frac_arith ex_model ex_text = Ok ex_lattice /\
  match populate_marginal frac_arith frac_marith ex_lattice 1 [0; 0; 0; 0] with
  | Ok (e, z) => map this e = [1; 1 # 3; 1 # 3; 2 # 3]%Q /\ this (frac_exp z) = (3 # 8)%Q
  | _ => False
  end.
Proof.
  split; [exact ex_made|]. split; [repeat constructor|]. split; [right; intros c Hc; cbn [In ex_text] in Hc; destruct Hc as [<-|[<-|[<-|[]]]]; vm_compute; tauto|]. split; [exact ex_apart|]. split; [exact ex_all|]. split; [exact frac_laws|]. split; [exact ex_lat|].
  vm_compute. split; reflexivity.
Qed.

(** The documented meaning of the smoothing parameter: with 2, chances are as the
    squares of the likelihoods.  The code applies it once more at each step. *)
Definition two : Qc := Q2Qc 2.
Definition ws_at (node : nat) : list Qc := match sample_weights frac_arith frac_marith ex_lattice two node with Ok (_, ws) => ws | _ => [] end.
Lemma drawn_step node ends i l path c' : match sample_weights frac_arith frac_marith ex_lattice two node with Ok (e, ws) => e = ends /\ (i < length ws)%nat | _ => False end -> nth_error ends i = Some l -> l <> 0%nat ->
  drawn frac_arith frac_marith 0 Qcinv ex_lattice two 0 l path c' -> drawn frac_arith frac_marith 0 Qcinv ex_lattice two 0 node (l :: path) (nth i (ws_at node) 0 * Qcinv (ksum frac_marith 0 (ws_at node)) * c').
Proof.
  unfold ws_at. destruct (sample_weights frac_arith frac_marith ex_lattice two node) as [[e ws]| |] eqn:E; try contradiction. intros [-> LI] H1 H2 D. eapply (drawn_node _ _ _ _ _ _ _ _ _ _ _ _ (nth i ws 0 * Qcinv (ksum frac_marith 0 ws)) _ c' E H1 H2); [|exact D].
  unfold draw. rewrite (nth_error_nth' ws 0 LI). reflexivity.
Qed.
Lemma drawn_last node ends i : match sample_weights frac_arith frac_marith ex_lattice two node with Ok (e, ws) => e = ends /\ (i < length ws)%nat | _ => False end -> nth_error ends i = Some 0%nat ->
  drawn frac_arith frac_marith 0 Qcinv ex_lattice two 0 node [] (nth i (ws_at node) 0 * Qcinv (ksum frac_marith 0 (ws_at node))).
Proof.
  unfold ws_at. destruct (sample_weights frac_arith frac_marith ex_lattice two node) as [[e ws]| |] eqn:E; try contradiction. intros [-> LI] H1. eapply (drawn_bos _ _ _ _ _ _ _ _ _ _ _ _ E H1).
  unfold draw. rewrite (nth_error_nth' ws 0 LI). reflexivity.
Qed.
Lemma two_squares : forall x, ma_exp frac_marith (ma_scale frac_marith two x) = ma_exp frac_marith x * ma_exp frac_marith x.
Proof.
  intros x. cbn [ma_scale ma_exp frac_marith]. destruct (Qc_eq_dec two 1) as [E|_]; [apply (f_equal this) in E; vm_compute in E; discriminate|]. unfold frac_exp. rewrite qc_mul. reflexivity.
Qed.
Theorem C74_smoothing_refuted : exists m s la segs theta seg1 seg2 path1 path2 c1 c2, made frac_arith m /\ text_ok s /\ covered m s /\ unk_apart m s /\ all_segmentations frac_arith m s segs /\ populate_nodes frac_arith m s = Ok la /\
  (forall x, ma_exp frac_marith (ma_scale frac_marith theta x) = ma_exp frac_marith x * ma_exp frac_marith x) /\
  In seg1 segs /\ In seg2 segs /\ reads la path1 seg1 /\ reads la path2 seg2 /\ chance frac_arith frac_marith 0 Qcinv la theta path1 c1 /\ chance frac_arith frac_marith 0 Qcinv la theta path2 c2 /\
  let sq seg := likelihood frac_marith 1 seg * likelihood frac_marith 1 seg in c1 * sq seg2 <> c2 * sq seg1.
Proof.
  destruct C74_example as (H1 & H2 & H3 & H4 & H5 & _ & H7 & _).
  exists ex_model, ex_text, ex_lattice, ex_segs, two, [([97], 0, ex_half); ([98], 1, ex_half); ([99], 2, ex_half)]%N, [([97], 0, ex_half); ([98; 99], 3, ex_half)]%N, [2; 3; 5]%nat, [2; 4]%nat. eexists _, _.
  repeat (split; [assumption|]). split; [exact two_squares|]. split; [left; reflexivity|]. split; [right; left; reflexivity|].
  split; [repeat (constructor; [split; [vm_compute; reflexivity|eexists; split; [vm_compute; reflexivity|split; reflexivity]]|]); constructor|].
  split; [repeat (constructor; [split; [vm_compute; reflexivity|eexists; split; [vm_compute; reflexivity|split; reflexivity]]|]); constructor|].
  split.
  { exists 1%nat, 0%nat. split; [vm_compute; reflexivity|]. split; [vm_compute; reflexivity|]. cbn [rev app].
    eapply (drawn_step 1 [4; 5] 1)%nat; [vm_compute; split; [reflexivity|lia]|reflexivity|lia|]. eapply (drawn_step 5 [3] 0)%nat; [vm_compute; split; [reflexivity|lia]|reflexivity|lia|].
    eapply (drawn_step 3 [2] 0)%nat; [vm_compute; split; [reflexivity|lia]|reflexivity|lia|]. eapply (drawn_last 2 [0] 0)%nat; [vm_compute; split; [reflexivity|lia]|reflexivity]. }
  split.
  { exists 1%nat, 0%nat. split; [vm_compute; reflexivity|]. split; [vm_compute; reflexivity|]. cbn [rev app].
    eapply (drawn_step 1 [4; 5] 0)%nat; [vm_compute; split; [reflexivity|lia]|reflexivity|lia|]. eapply (drawn_step 4 [2] 0)%nat; [vm_compute; split; [reflexivity|lia]|reflexivity|lia|].
    eapply (drawn_last 2 [0] 0)%nat; [vm_compute; split; [reflexivity|lia]|reflexivity]. }
  cbv zeta. intros H. apply (f_equal this) in H. vm_compute in H. discriminate.
Qed.

(** When the text of the unknown token is in the text and ends with a character
    that is not a token, the sums start again in the middle: here "xz" is the
    unknown token, "x" a token and "z" not. *)
Definition unk_vocab : list (str * frac) := [([120; 122]%N, ex_half); ([120%N], ex_half)].
Definition unk_model : unigram frac := Eval vm_compute in match uni_from frac_arith unk_vocab (Some 0%N) false with Ok m => m | _ => mkUni [] [] tnode0 ex_half None 0%N 0%N true false end.
Definition unk_text : str := [120; 122]%N.
Definition unk_lattice : lattice frac := Eval vm_compute in match populate_nodes frac_arith unk_model unk_text with Ok la => la | _ => mkLat [] [] [] [] end.
Definition unk_segs : list (list (str * N * frac)) := [[([120], 1, ex_half); ([122], 0, (1, 8)%positive)]; [([120; 122], 0, ex_half)]]%N.
Theorem C74_unknown_refuted : exists m s la segs e z, made frac_arith m /\ text_ok s /\ covered m s /\ all_segmentations frac_arith m s segs /\ populate_nodes frac_arith m s = Ok la /\
  populate_marginal frac_arith frac_marith la 1 (repeat 0 (length (u_vocab m))) = Ok (e, ma_scale frac_marith 1 z) /\ ma_exp frac_marith z <> evidence frac_marith 0 1 segs.
Proof.
  assert (MD : made frac_arith unk_model) by (exists unk_vocab, (Some 0%N), false; eexists _, _; split; [vm_compute; reflexivity|]; split; [repeat constructor|reflexivity]).
  destruct (populate_marginal frac_arith frac_marith unk_lattice 1 (repeat 0 (length (u_vocab unk_model)))) as [[e z]| |] eqn:E; [|vm_compute in E; discriminate|vm_compute in E; discriminate].
  exists unk_model, unk_text, unk_lattice, unk_segs, e, z. split; [exact MD|]. split; [repeat constructor|]. split; [left; eexists; reflexivity|]. split.
  { destruct (enum_spec frac_arith unk_model (made_wf _ _ MD) 2 unk_text ltac:(cbn; lia)) as [D I]. assert (X : enum frac_arith unk_model 2 unk_text = unk_segs) by (vm_compute; reflexivity). rewrite X in D, I. split; assumption. }
  split; [vm_compute; reflexivity|]. split; [rewrite frac_one; exact E|].
  assert (Z : match populate_marginal frac_arith frac_marith unk_lattice 1 (repeat 0 (length (u_vocab unk_model))) with Ok (_, y) => this (frac_exp y) | _ => 0%Q end = (1 # 2)%Q \/ match populate_marginal frac_arith frac_marith unk_lattice 1 (repeat 0 (length (u_vocab unk_model))) with Ok (_, y) => this (frac_exp y) | _ => 0%Q end = (1 # 16)%Q) by (vm_compute; tauto).
  rewrite E in Z. cbn [ma_exp frac_marith]. intros H. rewrite H in Z. vm_compute in Z. destruct Z; discriminate.
Qed.
