(** Theorems about the n best segmentations. *)
From Coq Require Import Permutation Sorted ZArith.
From Verif Require Import Base StrBytes ListFacts AMap Utf8 EncodingModel BpeModel UnigramModel UnigramSpec UnigramProofs UnigramProofs2 UnigramProofs3 UnigramProofs4 UnigramProofs5 UnigramProps NBestSpec NBestProofs NBestProofs2.

Section setup.
  Context {W : Type} (A : arith W) (ok : W -> Prop) (m : unigram W) (s : str).
  Context (Hm : made A m) (HS : scores_in A ok m s) (Hs : text_ok s) (HC : covered m s).
  Notation chain := (chain s).

  Lemma chars : Forall (fun c => (exists u, u_unk m = Some u) \/ In [c] (map fst (u_vocab m))) s.
  Proof. apply Forall_forall. intros c Hc. destruct HC as [H|H]; auto. Qed.

  (** The lattice and the result of the Viterbi search. *)
  Lemma search_ready : exists la L nodes path seg, populate_nodes A m s = Ok la /\ holds A m s la L /\ all_to A m s (blen s) L /\ NoDup L /\
    (forall p it, In (p, it) L -> ok (snd it)) /\ (forall p c q, s = p ++ c :: q -> exists it, In (p, it) L) /\ (forall p c q, s = p ++ c :: q -> exists p' it, In (p', it) L /\ p ++ [c] = p' ++ fst (fst it)) /\
    viterbi A la = Ok (nodes, path) /\ vinv A ok la (S (blen s)) nodes /\ chain L [] path seg /\ best A m s seg.
  Proof.
    destruct HS as (HL & Hok & Hunk). pose proof (made_wf A m Hm) as Hwf. destruct (populate_once A m Hwf s Hs) as (la & L & E & H & AL & ND).
    assert (K : forall p it, In (p, it) L -> ok (snd it)) 
      by (intros p it I; apply AL in I; destruct I as (_ & IO & (q & Es)); destruct it as [[x id] w]; cbn [fst snd] in *; destruct IO as [[_ LE]|(c & _ & _ & _ & ->)]; [exact (Hok x id w p q LE Es)|exact Hunk]).
    assert (P : forall p c q, s = p ++ c :: q -> exists it, In (p, it) L /\ fst (fst it) = [c]) by (intros p c q Es; eapply (char_place A m s (fun _ => True) (fun _ _ _ => I)); eauto; apply chars).
    assert (P1 : forall p c q, s = p ++ c :: q -> exists it, In (p, it) L) by (intros p c q Es; destruct (P p c q Es) as (it & X & _); eauto).
    assert (P2 : forall p c q, s = p ++ c :: q -> exists p' it, In (p', it) L /\ p ++ [c] = p' ++ fst (fst it)) by (intros p c q Es; destruct (P p c q Es) as (it & X & Y); exists p, it; rewrite Y; auto).
    destruct (viterbi_table A m s Hs ok HL la L H AL K P1 P2) as (nodes & path & seg & EV & V & C & B). exists la, L, nodes, path, seg. repeat (split; [assumption|]). exact B.
  Qed.

  (** The same without laws. *)
  Lemma search_free : exists la L nodes path seg, populate_nodes A m s = Ok la /\ holds A m s la L /\ all_to A m s (blen s) L /\ NoDup L /\
    viterbi A la = Ok (nodes, path) /\ statics nodes (la_nodes la) /\ chain L [] path seg.
  Proof.
    clear HS. pose proof (made_wf A m Hm) as Hwf. destruct (populate_once A m Hwf s Hs) as (la & L & E & H & AL & ND).
    assert (P : forall p c q, s = p ++ c :: q -> exists it, In (p, it) L /\ fst (fst it) = [c]).
    { intros p c q Es. eapply (char_place A m s (fun _ => True) (fun _ _ _ => I)); eauto. apply chars. }
    assert (P1 : forall p c q, s = p ++ c :: q -> exists it, In (p, it) L) by (intros p c q Es; destruct (P p c q Es) as (it & X & _); eauto).
    assert (P2 : forall p c q, s = p ++ c :: q -> exists p' it, In (p', it) L /\ p ++ [c] = p' ++ fst (fst it)) by (intros p c q Es; destruct (P p c q Es) as (it & X & Y); exists p, it; rewrite Y; auto).
    destruct (viterbi_free A m s la L H P1 P2) as (nodes & path & seg & EV & V & C). exists la, L, nodes, path, seg. repeat (split; [assumption|]). exact C.
  Qed.

  Definition first_hyp : hypothesis W := mkHyp 1 [] (a_zero A) (a_zero A).
  Lemma nbest_is la L nodes path fuel n pop : holds A m s la L -> viterbi A la = Ok (nodes, path) -> 2 <= n -> nbest A fuel la n pop = nbest_loop A fuel la nodes (u_bos m) n pop [first_hyp] [].
  Proof.
    intros H EV Hn. destruct n as [|[|n]]; try lia. cbn [nbest]. rewrite (eos_is A m s la L H). cbn [bind]. rewrite (ho_nodes _ _ _ _ _ H). cbn [nth_error of_option bind]. rewrite EV. cbn [bind fst].
    rewrite (bos_is A m s la L H). cbn [bind]. pose proof (viterbi_static A la _ EV) as ST. cbn [fst] in ST.
    destruct (statics_nth nodes _ 0 _ ST ltac:(rewrite (ho_nodes _ _ _ _ _ H); reflexivity)) as (n0 & E0 & (SI & _)). rewrite E0. cbn [of_option bind]. rewrite SI. reflexivity.
  Qed.
  Lemma first_ok L : Forall (hok s L) [first_hyp].
  Proof. constructor; [|constructor]. apply (hok_open s L _ s [] []); [constructor|reflexivity|exists []; rewrite app_nil_r; reflexivity]. Qed.
  Lemma first_weight L : weight s L [first_hyp] = steps (length s).
  Proof. unfold weight. cbn [map list_sum fold_right h_node first_hyp weight_of]. apply Nat.add_0_r. Qed.
  Lemma first_covers ids : covers [first_hyp] ids.
  Proof. exists first_hyp. split; [left; reflexivity|]. exists (0 :: ids). unfold full. cbn. reflexivity. Qed.
  Lemma first_light L : length s <= 16 -> light s L [first_hyp].
  Proof.
    intros H. unfold light. rewrite first_weight. assert (X : steps (length s) <= 3 * 2 ^ 15).
    { destruct (length s) as [|k]; cbn [steps]; [pose proof (Nat.pow_nonzero 2 15); lia|]. apply Nat.mul_le_mono_l. apply Nat.pow_le_mono_r; lia. }
    assert (Y : (N.of_nat (steps (length s)) <= N.of_nat (3 * 2 ^ 15))%N) by lia. rewrite Nat2N.inj_mul, Nat2N.inj_pow in Y. cbn in Y. lia.
  Qed.
  Lemma out_segs (L : list (list N * (list N * N * W))) out : Forall (path_ok s L) out -> exists segs, Forall2 (chain L []) out segs.
  Proof. induction 1 as [|x out (seg & C) F (segs & IH)]; [exists []; constructor|]. exists (seg :: segs). constructor; assumption. Qed.
End setup.

(** The search for the n best ends, on any text that can be segmented, whatever the order
    in which the agenda gives its elements. *)
Theorem C73_ends : forall {W} (A : arith W) m s, made A m -> text_ok s -> covered m s ->
  exists la, populate_nodes A m s = Ok la /\
    forall n pop fuel, bag_pop pop -> 3 * 2 ^ length s < fuel -> exists out, nbest A fuel la n pop = Ok out.
Proof.
  intros W A m s Hm Hs HC. pose proof (made_wf A m Hm) as Hwf. destruct (search_free A m s Hm Hs HC) as (la & L & nodes & path & seg & E & H & AL & ND & EV & V & C).
  exists la. split; [exact E|]. intros n pop fuel HP LF. destruct n as [|[|n]]; [eexists; reflexivity|cbn [nbest]; rewrite EV; cbn; eauto|].
  rewrite (nbest_is A m s la L nodes path fuel (S (S n)) pop H EV) by lia. apply (loop_total A m Hwf s Hs la L H AL ND pop HP nodes V); [lia|apply first_ok|]. rewrite first_weight.
  destruct (length s) as [|k]; cbn [steps]; [lia|]. cbn [Nat.pow] in LF. lia.
Qed.

(** The paths read as at most n segmentations of the text, no two the same. *)
Theorem C73_segmentations : forall {W} (A : arith W) m s la fuel n pop out, made A m -> text_ok s -> covered m s -> bag_pop pop ->
  populate_nodes A m s = Ok la -> nbest A fuel la n pop = Ok out ->
  length out <= n /\ exists segs, Forall2 (reads la) out segs /\ NoDup segs /\ Forall (segmentation A m s) segs.
Proof.
  intros W A m s la fuel n pop out Hm Hs HC HP EL EO. pose proof (made_wf A m Hm) as Hwf. destruct (search_free A m s Hm Hs HC) as (la' & L & nodes & path & seg & E & H & AL & ND & EV & V & C).
  rewrite EL in E. injection E as <-.
  assert (G : length out <= n /\ NoDup out /\ Forall (path_ok s L) out).
  { destruct (Nat.le_gt_cases 2 n) as [Hn|Hn].
    - rewrite (nbest_is A m s la L nodes path fuel n pop H EV Hn) in EO. apply (loop_run A m Hwf s la L H AL pop HP nodes V) in EO; [|apply first_ok]. split; [|split].
      + eapply run_length; [exact EO|cbn; lia].
      + apply (run_antichain A m s la L H pop HP) in EO; [|cbn; constructor; [constructor|constructor]]. apply antichain_nodup in EO. eapply NoDup_map_inv; exact EO.
      + eapply run_paths; [exact EO|constructor].
    - destruct n as [|[|n]]; [| |lia]; cbn [nbest] in EO.
      + injection EO as <-. repeat split; constructor.
      + rewrite EV in EO. cbn in EO. injection EO as <-. split; [cbn; lia|]. split; [constructor; [intros []|constructor]|]. constructor; [exists seg; exact C|constructor]. }
  destruct G as (G1 & G2 & G3). split; [exact G1|]. destruct (out_segs s L out G3) as (segs & F). exists segs. split; [|split].
  - eapply Forall2_impl; [|exact F]. intros x sg Cx. eapply chain_reads; eauto.
  - clear - F G2 ND. induction F as [|x sg out segs Cx F IH]; constructor.
    + inversion G2 as [|? ? NI _]; subst. intros I. apply NI. clear - F I Cx ND. induction F as [|y sy out segs Cy F IH]; [contradiction|]. destruct I as [->|I]; [left; eapply chain_inj; eauto|right; auto].
    + apply IH. inversion G2; assumption.
  - clear - F AL. induction F as [|x sg out segs Cx F IH]; constructor; [|exact IH]. eapply chain_segmentation; eauto.
Qed.

(** A path reads as one segmentation. *)
Theorem C73_reading : forall {W} (la : lattice W) path seg seg', reads la path seg -> reads la path seg' -> seg = seg'.
Proof.
  intros W la path seg seg' H. revert seg'. induction H as [|k it path seg (E1 & n & E2 & E3 & E4) H IH]; intros seg' H'; inversion H' as [|? it' ? seg2 (E1' & n' & E2' & E3' & E4') H2]; subst; [reflexivity|].
  f_equal; [|apply IH; assumption]. rewrite E2 in E2'. injection E2' as <-. destruct it as [[x id] w], it' as [[x' id'] w']. cbn in *. rewrite E1 in E1'. injection E1' as ->. congruence.
Qed.

(** If fewer than asked are returned for a text of at most 16 characters, all are there. *)
Theorem C73_all : forall {W} (A : arith W) m s la fuel n pop out, made A m -> text_ok s -> covered m s -> bag_pop pop ->
  length s <= 16 -> populate_nodes A m s = Ok la -> nbest A fuel la n pop = Ok out -> length out < n ->
  forall seg, segmentation A m s seg -> exists path, In path out /\ reads la path seg.
Proof.
  intros W A m s la fuel n pop out Hm Hs HC HP L16 EL EO LT sg [GF GT]. pose proof (made_wf A m Hm) as Hwf. destruct (search_free A m s Hm Hs HC) as (la' & L & nodes & path & seg & E & H & AL & ND & EV & V & C).
  rewrite EL in E. injection E as <-. destruct (chain_make A m s L AL sg [] GF) as (ids & CI); [symmetry; exact GT|]. exists ids. split; [|eapply chain_reads; eauto].
  destruct (Nat.le_gt_cases 2 n) as [Hn|Hn].
  - rewrite (nbest_is A m s la L nodes path fuel n pop H EV Hn) in EO. apply (loop_run A m Hwf s la L H AL pop HP nodes V) in EO; [|apply first_ok].
    eapply (run_complete A m s Hs la L H AL ND pop HP nodes); [exact EO|apply first_light; exact L16| |exact LT|exact CI]. intros ids' sg' _. right. apply first_covers.
  - destruct n as [|[|n]]; try lia. cbn [nbest] in EO. rewrite EV in EO. cbn in EO. injection EO as <-. cbn in LT. lia.
Qed.

Lemma scores_all {W} (A : arith W) ok m s : scores_ok A ok m -> scores_in A ok m s.
Proof. intros (HL & H & HU). split; [exact HL|]. split; [|exact HU]. intros t id w a b [E _] _. apply (H t). eapply nth_error_In; eauto. Qed.

Section exact.
  Context {W : Type} (A : arith W) (ok : W -> Prop) (Hx : exact_laws A ok) (m : unigram W) (s : str).
  Context (Hm : made A m) (HS : scores_in A ok m s) (Hs : text_ok s) (HC : covered m s).
  Context (la : lattice W) (fuel n : nat) (pop : list (hypothesis W) -> option (hypothesis W * list (hypothesis W))) (out : list (list nat)) (HP : heap_pop A pop).
  Context (EL : populate_nodes A m s = Ok la) (EO : nbest A fuel la n pop = Ok out).

  Lemma exact_result : exists L, holds A m s la L /\ all_to A m s (blen s) L /\ Forall (path_ok s L) out /\ sorted A s L out /\
    (0 < n -> exists x r, out = x :: r /\ best_ids A m s L x) /\
    (length s <= 16 -> forall ids sg, chain s L [] ids sg -> In ids out \/ forall x sx, In x out -> chain s L [] x sx -> a_gtb A (total A sg) (total A sx) = false).
  Proof.
    pose proof (made_wf A m Hm) as Hwf. destruct (search_ready A ok m s Hm HS Hs HC) as (la' & L & nodes & path & seg & E & H & AL & ND & K & P1 & P2 & EV & V & C & B).
    rewrite EL in E. injection E as <-. exists L. split; [exact H|]. split; [exact AL|].
    destruct (Nat.le_gt_cases 2 n) as [Hn|Hn].
    - assert (R := EO). rewrite (nbest_is A m s la L nodes path fuel n pop H EV Hn) in R. apply (loop_run A m Hwf s la L H AL pop (proj1 HP) nodes (vi_static _ _ _ _ _ V)) in R; [|apply first_ok].
      assert (RK : ranked A s L nodes [first_hyp A]) by (left; reflexivity).
      assert (BD : bounded A s L [first_hyp A] []) by (intros x sx ids sg []).
      assert (SO : sorted A s L []) by constructor.
      split; [eapply run_paths; [exact R|constructor]|]. split; [|split].
      + eapply (run_sorted A m s Hs ok Hx la L H AL ND K P1 P2 pop HP nodes V); eauto.
      + intros _. eapply (run_first A m s Hs ok Hx la L H AL ND K P1 P2 pop HP nodes V) with (n := n) (hyps := []) (agenda := [first_hyp A]); [lia|exact R|exact RK| |intros x r X; discriminate].
        intros _. exists path. split; [exists seg; auto|apply first_covers].
      + intros L16. eapply (run_best A m s Hs ok Hx la L H AL ND K P1 P2 pop HP nodes V); [exact R|apply first_light; exact L16|exact RK|exact BD|exact SO|]. intros ids sg _. right. apply first_covers.
    - assert (R := EO). assert (CC : n = 0 \/ n = 1) by lia. destruct CC as [-> | ->]; cbn [nbest] in R.
      + injection R as <-. split; [constructor|]. split; [constructor|]. split; [lia|]. intros _ ids sg _. right. intros x sx [].
      + rewrite EV in R. cbn in R. injection R as <-. split; [constructor; [exists seg; exact C|constructor]|]. split; [constructor; constructor|]. split; [intros _; exists path, []; split; [reflexivity|exists seg; auto]|].
        intros _ ids sg CI. right. intros x sx [<-|[]] Cx. assert (sx = seg) by (eapply chain_fun; eauto). subst sx. apply B. eapply chain_segmentation; eauto.
  Qed.
End exact.

(** With exact scores, they come from the best to the worst ... *)
Theorem C73_descending : forall {W} (A : arith W) ok m s la fuel n pop out, exact_laws A ok -> made A m -> scores_in A ok m s -> text_ok s -> covered m s -> heap_pop A pop ->
  populate_nodes A m s = Ok la -> nbest A fuel la n pop = Ok out -> exists segs, Forall2 (reads la) out segs /\ descending A segs.
Proof.
  intros W A ok m s la fuel n pop out Hx Hm HS Hs HC HP EL EO. destruct (exact_result A ok Hx m s Hm HS Hs HC la fuel n pop out HP EL EO) as (L & H & AL & F & SO & _).
  destruct (out_segs s L out F) as (segs & F2). exists segs. split; [eapply Forall2_impl; [|exact F2]; intros x sg Cx; eapply chain_reads; eauto|].
  clear - F2 SO. unfold descending. induction F2 as [|x sg out segs Cx F2 IH]; [constructor|]. inversion SO as [|? ? SO' FA]; subst. constructor; [apply IH; exact SO'|].
  clear - FA Cx F2. induction F2 as [|y sy out segs Cy F2 IH]; [constructor|]. inversion FA as [|? ? Q FA']; subst. constructor; [apply Q; assumption|apply IH; assumption].
Qed.

(** ... the first is a best segmentation ... *)
Theorem C73_first : forall {W} (A : arith W) ok m s la fuel n pop out, exact_laws A ok -> made A m -> scores_in A ok m s -> text_ok s -> covered m s -> heap_pop A pop ->
  0 < n -> populate_nodes A m s = Ok la -> nbest A fuel la n pop = Ok out -> exists path rest seg, out = path :: rest /\ reads la path seg /\ best A m s seg.
Proof.
  intros W A ok m s la fuel n pop out Hx Hm HS Hs HC HP Hn EL EO. destruct (exact_result A ok Hx m s Hm HS Hs HC la fuel n pop out HP EL EO) as (L & H & AL & F & SO & FI & _).
  destruct (FI Hn) as (x & r & -> & (sg & C & B)). exists x, r, sg. split; [reflexivity|]. split; [eapply chain_reads; eauto|exact B].
Qed.

(** ... and, for a text of at most 16 characters, no other segmentation is better than those returned. *)
Theorem C73_best : forall {W} (A : arith W) ok m s la fuel n pop out, exact_laws A ok -> made A m -> scores_in A ok m s -> text_ok s -> covered m s -> heap_pop A pop ->
  length s <= 16 -> populate_nodes A m s = Ok la -> nbest A fuel la n pop = Ok out -> exists segs, Forall2 (reads la) out segs /\
  forall seg, segmentation A m s seg -> In seg segs \/ forall x, In x segs -> a_gtb A (total A seg) (total A x) = false.
Proof.
  intros W A ok m s la fuel n pop out Hx Hm HS Hs HC HP L16 EL EO. destruct (exact_result A ok Hx m s Hm HS Hs HC la fuel n pop out HP EL EO) as (L & H & AL & F & _ & _ & BE).
  destruct (out_segs s L out F) as (segs & F2). exists segs. split; [eapply Forall2_impl; [|exact F2]; intros x sg Cx; eapply chain_reads; eauto|].
  intros sg [GF GT]. destruct (chain_make A m s L AL sg [] GF) as (ids & CI); [symmetry; exact GT|]. specialize (BE L16 ids sg CI). clear - F2 BE CI. destruct BE as [I|BE].
  - left. induction F2 as [|x sx out segs Cx F2 IH]; [contradiction|]. destruct I as [->|I]; [left; eapply chain_fun; eauto|right; auto].
  - right. induction F2 as [|x sx out segs Cx F2 IH]; [intros y []|]. intros y [<-|Hy]; [apply (BE x sx); [left; reflexivity|exact Cx]|]. apply IH; [intros z sz Hz; apply BE; right; exact Hz|exact Hy].
Qed.

(** *** An example: "abab" with exact scores *)
Lemma z_exact : exact_laws z_arith (fun _ => True).
Proof. constructor; [exact z_laws|intros; cbn; lia|intros; cbn; lia]. Qed.

(** A heap of integers: the first of the greatest comes out. *)
Fixpoint z_pop (l : list (hypothesis Z)) : option (hypothesis Z * list (hypothesis Z)) :=
  match l with
  | [] => None
  | h :: l' => match z_pop l' with
               | None => Some (h, l')
               | Some (h', r) => if Z.gtb (h_fx h') (h_fx h) then Some (h', h :: r) else Some (h, l')
               end
  end.
Lemma z_heap : heap_pop z_arith z_pop.
Proof.
  split; [split|].
  - intros [|h l]; [reflexivity|]. cbn. destruct (z_pop l) as [[h' r]|]; [destruct (Z.gtb _ _)|]; discriminate.
  - induction l as [|a l IH]; intros h r E; [discriminate|]. cbn in E. destruct (z_pop l) as [[h' r']|]; [|injection E as <- <-; reflexivity].
    destruct (Z.gtb (h_fx h') (h_fx a)); injection E as <- <-; [|reflexivity]. rewrite (IH h' r' eq_refl). apply perm_swap.
  - cbn [z_arith a_gtb]. induction l as [|a l IH]; intros h r x E I; [contradiction|]. cbn in E. destruct (z_pop l) as [[h' r']|] eqn:EP.
    + destruct (Z.gtb_spec (h_fx h') (h_fx a)); injection E as <- <-; (destruct I as [<-|I]; [|specialize (IH _ _ x eq_refl I)]); rewrite Z.gtb_ltb in *; lia.
    + injection E as <- <-. assert (l = []) by (destruct l as [|b l]; [reflexivity|]; cbn in EP; destruct (z_pop l) as [[? ?]|]; [destruct (Z.gtb _ _)|]; discriminate). subst l. destruct I as [<-|[]]. rewrite Z.gtb_ltb. lia.
Qed.

Definition ex_abab : list (str * Z) := [([63], (-9)%Z); ([97], (-2)%Z); ([98], (-3)%Z); ([97; 98], (-4)%Z); ([98; 97], (-1)%Z)]%N.
Example C73_ex : exists m la out segs, uni_from z_arith ex_abab (Some 0%N) false = Ok m /\ made z_arith m /\ scores_in z_arith (fun _ => True) m [97; 98; 97; 98]%N /\ covered m [97; 98; 97; 98]%N /\
  exact_laws z_arith (fun _ => True) /\ heap_pop z_arith z_pop /\ populate_nodes z_arith m [97; 98; 97; 98]%N = Ok la /\
  nbest z_arith 49 la 3 z_pop = Ok out /\ Forall2 (reads la) out segs /\ map texts segs = [[[97]; [98; 97]; [98]]; [[97; 98]; [97; 98]]; [[97; 98]; [97]; [98]]]%N /\ map (total z_arith) segs = [-6; -8; -9]%Z.
Proof.
  destruct (uni_from z_arith ex_abab (Some 0%N) false) as [m| |] eqn:E; try discriminate. vm_compute in E. injection E as <-.
  eexists _, _, _, [[([97], 1, (-2)%Z); ([98; 97], 4, (-1)%Z); ([98], 2, (-3)%Z)]; [([97; 98], 3, (-4)%Z); ([97; 98], 3, (-4)%Z)]; [([97; 98], 3, (-4)%Z); ([97], 1, (-2)%Z); ([98], 2, (-3)%Z)]]%N.
  split; [reflexivity|]. split; [exists ex_abab, (Some 0%N), false; eexists _, _; split; [vm_compute; reflexivity|]; split; [repeat constructor|reflexivity]|].
  split; [split; [exact z_laws|split; intros; exact I]|]. split; [left; eexists; reflexivity|]. split; [exact z_exact|]. split; [exact z_heap|]. split; [vm_compute; reflexivity|]. split; [vm_compute; reflexivity|].
  split; [|split; reflexivity]. repeat (constructor; [repeat (constructor; [split; [vm_compute; reflexivity|eexists; split; [vm_compute; reflexivity|split; reflexivity]]|]); constructor|]). constructor.
Qed.
