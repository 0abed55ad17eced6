(** The n best segmentations: in order, the best ones. *)
From Coq Require Import Permutation Sorted.
From Verif Require Import Base StrBytes ListFacts AMap Utf8 EncodingModel BpeWordModel BpeWordProofs BpeModel TrieModel TrieProps UnigramModel UnigramSpec UnigramProofs UnigramProofs2 UnigramProofs3 UnigramProofs4 NBestSpec NBestProofs.

Section order.
  Context {W : Type} (A : arith W) (m : unigram W) (Hwf : wf m) (s : str) (Hs : text_ok s).
  Context (ok : W -> Prop) (Hx : exact_laws A ok).
  Notation place := (list N * (list N * N * W))%type.
  Notation holds := (holds A m s).
  Notation all_to := (all_to A m s).
  Notation chain := (chain s).
  Context (la : lattice W) (L : list place) (HH : holds la L) (HA : all_to (blen s) L) (NL : NoDup L).
  Context (HokL : forall p it, In (p, it) L -> ok (snd it)).
  Context (Hbegin : forall p c q, s = p ++ c :: q -> exists it, In (p, it) L).
  Context (Hend : forall p c q, s = p ++ c :: q -> exists p' it, In (p', it) L /\ p ++ [c] = p' ++ fst (fst it)).
  Context (pop : list (hypothesis W) -> option (hypothesis W * list (hypothesis W))) (HP : heap_pop A pop).
  Context (nodes : list (lnode W)) (V : vinv A ok la (S (blen s)) nodes).

  Let HL : score_laws A ok := xl_laws A ok Hx.
  Let HB : bag_pop pop := proj1 HP.
  Let ST : statics nodes (la_nodes la) := vi_static _ _ _ _ _ V.
  Notation le a b := (a_gtb A a b = false).
  Notation hok := (hok s L).
  Notation run := (run A s la L pop nodes).
  Notation child := (child A nodes).

  Lemma le_refl a : ok a -> le a a.
  Proof. apply (gtb_irrefl A ok HL). Qed.

  Fixpoint rsum (seg : list (str * N * W)) : W := match seg with [] => a_zero A | it :: seg' => a_add A (snd it) (rsum seg') end.
  Definition oks (seg : list (str * N * W)) : Prop := Forall (fun it => ok (snd it)) seg.
  Lemma rsum_ok seg : oks seg -> ok (rsum seg).
  Proof. induction 1; cbn; [apply (sl_zero _ _ HL)|]. apply (sl_add _ _ HL); assumption. Qed.
  Lemma total_from seg : oks seg -> forall acc, ok acc -> fold_left (fun acc it => a_add A (snd it) acc) seg acc = a_add A acc (rsum seg).
  Proof.
    induction 1 as [|it seg H F IH]; intros acc Hacc; cbn [fold_left rsum]; [symmetry; apply (xl_zero _ _ Hx); exact Hacc|].
    pose proof (rsum_ok _ F). rewrite IH by (apply (sl_add _ _ HL); assumption). rewrite (sl_comm _ _ HL (snd it) acc) by assumption. symmetry. apply (xl_assoc _ _ Hx); assumption.
  Qed.
  Lemma total_rsum seg : oks seg -> total A seg = rsum seg.
  Proof.
    intros F. pose proof (sl_zero _ _ HL). pose proof (rsum_ok _ F). unfold total. rewrite total_from by assumption. rewrite (sl_comm _ _ HL) by assumption. apply (xl_zero _ _ Hx). assumption.
  Qed.
  Lemma total_ok seg : oks seg -> ok (total A seg).
  Proof. intros F. rewrite total_rsum by exact F. apply rsum_ok. exact F. Qed.
  Lemma total_split a b : oks a -> oks b -> total A (a ++ b) = a_add A (total A a) (rsum b).
  Proof. intros Fa Fb. unfold total at 1. rewrite fold_left_app. apply total_from; [exact Fb|]. apply total_ok. exact Fa. Qed.
  Lemma chain_oks p ids seg : chain L p ids seg -> oks seg.
  Proof. intros C. apply chain_items in C. eapply Forall_impl; [|exact C]. intros it (p' & I). eapply HokL; eauto. Qed.

  Lemma back_ok i n : nth_error nodes i = Some n -> ok (ln_back n).
  Proof.
    intros E. destruct i as [|i].
    - destruct (vi_bos _ _ _ _ _ V) as (n0 & E0 & _ & B). rewrite E in E0. injection E0 as <-. rewrite B. apply (sl_zero _ _ HL).
    - destruct (vi_done _ _ _ _ _ V i n E) as (b & ends & _ & _ & O & _); [|exact O].
      destruct (node_cases A m s la L HH nodes _ n ST E) as [[X _]|[[_ (_ & -> & _)]|(j & p & x & id & w & _ & EL & (_ & -> & _))]]; try lia; cbn; [lia|].
      destruct (fit A m s la L HH _ _ _ _ _ EL) as [_ (q & Es)]. rewrite Es, blen_app. lia.
  Qed.
  Lemma score_ok i n : nth_error nodes i = Some n -> ok (ln_score n).
  Proof.
    intros E. destruct (node_cases A m s la L HH nodes _ n ST E) as [[_ (_ & _ & _ & ->)]|[[_ (_ & _ & _ & ->)]|(j & p & x & id & w & _ & EL & (_ & _ & _ & ->))]]; cbn; try apply (sl_zero _ _ HL). apply (HokL p (x, id, w)). eapply nth_error_In; eauto.
  Qed.

  (** ** Priorities *)
  Definition fxok (h : hypothesis W) : Prop :=
    exists p mid seg n, chain L p mid seg /\ h_next h = mid ++ [1] /\ nth_error nodes (h_node h) = Some n /\ h_fx h = a_add A (ln_back n) (rsum seg) /\ h_gx h = a_add A (ln_score n) (rsum seg) /\ ends_at L (h_node h) p.
  Definition start : hypothesis W := mkHyp 1 [] (a_zero A) (a_zero A).
  Definition ranked (agenda : list (hypothesis W)) : Prop := agenda = [start] \/ Forall fxok agenda.

  Lemma fx_ok h : fxok h -> ok (h_fx h).
  Proof. intros (p & mid & seg & n & C & _ & En & -> & _). apply (sl_add _ _ HL); [eapply back_ok; eauto|]. apply rsum_ok. eapply chain_oks; eauto. Qed.

  (** The priority bounds the scores of the paths that end like the hypothesis. *)
  Lemma fx_bound h ids sg : fxok h -> chain L [] ids sg -> suffix (nodes_of h) (full ids) -> le (total A sg) (h_fx h).
  Proof.
    intros (p & mid & seg & n & C & EN & En & EF & _ & EA) CI S. unfold nodes_of in S. rewrite EN in S. rewrite EF. pose proof (chain_oks _ _ _ C) as OS. destruct EA as [[E0 ->]|(j & p' & [[x id] w] & E0 & EL & EP)]; rewrite E0 in *.
    - change (0 :: mid ++ [1]) with (full mid) in S. apply (full_suffix s L) with (seg := sg) in S; [|exact CI]. subst mid. assert (seg = sg) by (eapply chain_fun; eauto). subst seg.
      destruct (vi_bos _ _ _ _ _ V) as (n0 & E0' & _ & B). rewrite En in E0'. injection E0' as <-. rewrite B, total_rsum by exact OS. pose proof (sl_zero _ _ HL). pose proof (rsum_ok _ OS) as OR. rewrite (sl_comm _ _ HL) by assumption. rewrite (xl_zero _ _ Hx) by exact OR. apply le_refl. exact OR.
    - destruct S as (y & EQ). unfold full in EQ. destruct y as [|a y]; [discriminate|]. cbn in EQ. injection EQ as _ EQ. change (y ++ S (S j) :: mid ++ [1]) with (y ++ (S (S j) :: mid) ++ [1]) in EQ. rewrite app_assoc in EQ. apply app_inj_tail in EQ. destruct EQ as [-> _].
      destruct (chain_app s L _ _ _ _ CI) as (sa & sb & -> & Cb). cbn [app] in Cb. inversion Cb as [|j' p0 x' id' w' path seg0 EL' C']; subst. rewrite EL in EL'. injection EL' as -> <- <- <-.
      assert (seg0 = seg) by (eapply chain_fun; eauto). subst seg0.
      assert (CO := chain_oks _ _ _ CI). unfold oks in CO. apply Forall_app in CO. destruct CO as [Oa Ob]. inversion Ob as [|? ? Ox _]; subst. cbn in Ox.
      pose proof (chain_segmentation A m s L _ _ HA CI) as [FI FT]. change ((x, id, w) :: seg) with ([(x, id, w)] ++ seg) in FI, FT. rewrite app_assoc in FI, FT. apply Forall_app in FI. destruct FI as [FI _].
      destruct (vit_bound A m s ok HL la L HH HA HokL Hbegin Hend nodes V sa (x, id, w) (concat (texts seg)) FI) as (j2 & n2 & EL2 & En2 & O2 & OT & B).
      { symmetry. rewrite <- FT. unfold texts. rewrite !map_app, !concat_app. reflexivity. }
      assert (j2 = j) by (eapply (place_fun L NL); eauto). subst j2. rewrite En in En2. injection En2 as <-.
      change ((x, id, w) :: seg) with ([(x, id, w)] ++ seg). rewrite app_assoc. assert (Oax : oks (sa ++ [(x, id, w)])) by (apply Forall_app; split; [exact Oa|constructor; [exact Ox|constructor]]).
      rewrite total_split by assumption. pose proof (rsum_ok _ OS) as OR. rewrite (sl_comm _ _ HL _ (rsum seg)), (sl_comm _ _ HL (ln_back n) (rsum seg)) by assumption. apply (sl_mono _ _ HL); assumption.
  Qed.

  (** It is the score of one of them. *)
  Lemma fx_attained h : fxok h -> exists ids sg, chain L [] ids sg /\ suffix (nodes_of h) (full ids) /\ total A sg = h_fx h.
  Proof.
    intros (p & mid & seg & n & C & EN & En & EF & _ & EA). pose proof (chain_oks _ _ _ C) as OS. destruct EA as [[E0 ->]|(j & p' & [[x id] w] & E0 & EL & EP)]; rewrite E0 in *.
    - exists mid, seg. split; [exact C|]. split; [unfold nodes_of; rewrite E0, EN; apply suffix_refl|].
      destruct (vi_bos _ _ _ _ _ V) as (n0 & E0' & _ & B). rewrite En in E0'. injection E0' as <-. rewrite EF, B, total_rsum by exact OS. pose proof (sl_zero _ _ HL). pose proof (rsum_ok _ OS) as OR. rewrite (sl_comm _ _ HL) by assumption. symmetry. apply (xl_zero _ _ Hx). exact OR.
    - destruct (vchain_exists A m s ok HL la L HH HokL Hbegin Hend nodes V (S (blen p')) j _ _ _ _ n (Nat.lt_succ_diag_r _) EL En) as (ids & sg & VC & T).
      cbn in EP. rewrite <- EP in VC. pose proof (vchain_chain s L nodes _ _ _ _ VC _ _ C) as CI. exists (ids ++ mid), (sg ++ seg). split; [exact CI|]. split.
      + inversion VC as [|j' p0 x' id' w' n' b ids0 sg0 EL' En' EP' VC' Q1 Q2 Q3]; subst. unfold nodes_of. rewrite E0, EN. exists (0 :: ids0). unfold full. cbn. rewrite <- !app_assoc. reflexivity.
      + pose proof (chain_oks _ _ _ CI) as O. apply Forall_app in O. rewrite total_split by tauto. rewrite T, EF. reflexivity.
  Qed.

  Lemma children_fxok agenda top rest p q mid seg ends new : ranked agenda -> pop agenda = Some (top, rest) -> chain L p mid seg -> nodes_of top = mid ++ [1] -> s = p ++ q ->
    nth_error (la_end la) (blen p) = Some ends -> Forall2 (child top) ends new -> Forall fxok (rest ++ new).
  Proof.
    intros RK EP C E Es EE F. pose proof (pop_perm pop HB _ _ _ EP) as P.
    assert (EA : forall l, In l ends -> ends_at L l p) by (intros l Hl; eapply end_prefix; eauto).
    assert (G : h_gx top = rsum seg /\ Forall fxok rest).
    { destruct RK as [->|RK].
      - apply Permutation_length_1_inv in P. injection P as -> ->. split; [|constructor]. cbn in E. inversion C as [|j p0 x id w path seg0 E' C']; subst; [reflexivity|]. cbn in E. discriminate.
      - apply (Permutation_Forall P) in RK. inversion RK as [|? ? HT FR]; subst. split; [|exact FR]. destruct HT as (p1 & mid1 & seg1 & n & C1 & EN & En & _ & EG & EA1).
        unfold nodes_of in E. rewrite EN in E. destruct EA1 as [[E0 _]|(j & p' & [[x id] w] & E0 & EL & EP1)]; rewrite E0 in *.
        + exfalso. inversion C as [|j p0 x id w path seg0 E' C']; subst; cbn in E; discriminate.
        + change (S (S j) :: mid1 ++ [1]) with ((S (S j) :: mid1) ++ [1]) in E. apply app_inj_tail in E. destruct E as [<- _].
          assert (ES : seg = (x, id, w) :: seg1) by (eapply chain_fun; [exact C|econstructor; [exact EL|]; cbn in EP1; rewrite <- EP1; exact C1]). subst seg. cbn [rsum snd]. rewrite EG.
          destruct (node_cases A m s la L HH nodes _ n ST En) as [[X _]|[[X _]|(j' & p2 & x' & id' & w' & X & EL' & (_ & _ & _ & SS))]]; try lia. injection X as <-. rewrite EL in EL'. injection EL' as <- <- <- <-. rewrite SS. reflexivity. }
    destruct G as [EG FR]. apply Forall_app. split; [exact FR|]. clear EE. induction F as [|l h ends new (n & En & ->) F IH]; [constructor|]. constructor; [|apply IH; intros l' Hl'; apply EA; right; exact Hl'].
    exists p, mid, seg, n. cbn. rewrite EG. repeat split; auto. apply EA. left. reflexivity.
  Qed.

  Lemma kept_fxok n all l : kept pop n all l -> Forall fxok all -> Forall fxok l.
  Proof. intros K F. destruct (kept_perm pop HB _ _ _ K) as (d & P). apply (Permutation_Forall P) in F. apply Forall_app in F. tauto. Qed.
  Lemma ranked_rest agenda top rest mid : ranked agenda -> pop agenda = Some (top, rest) -> nodes_of top = full mid -> fxok top /\ Forall fxok rest.
  Proof.
    intros RK EP E. pose proof (pop_perm pop HB _ _ _ EP) as P. destruct RK as [->|RK].
    - apply Permutation_length_1_inv in P. injection P as -> ->. unfold nodes_of, full in E. cbn in E. discriminate.
    - apply (Permutation_Forall P) in RK. inversion RK; auto.
  Qed.
  (** The score of a complete hypothesis. *)
  Lemma done_score top mid seg : fxok top -> chain L [] mid seg -> nodes_of top = full mid -> h_fx top = total A seg.
  Proof.
    intros HT C E. destruct (fx_attained top HT) as (ids & sg & CI & S & T). rewrite E in S. apply (full_suffix s L) with (seg := sg) in S; [|exact CI]. subst ids. rewrite <- T. f_equal. eapply chain_fun; eauto.
  Qed.

  Definition bounded (agenda : list (hypothesis W)) (hyps : list (list nat)) : Prop :=
    forall x sx ids sg, In x hyps -> chain L [] x sx -> chain L [] ids sg -> covers agenda ids -> le (total A sg) (total A sx).
  Definition sorted (hyps : list (list nat)) : Prop :=
    StronglySorted (fun a b => forall sa sb, chain L [] a sa -> chain L [] b sb -> le (total A sb) (total A sa)) hyps.

  Lemma sorted_snoc hyps x : sorted hyps -> (forall y sy sx, In y hyps -> chain L [] y sy -> chain L [] x sx -> le (total A sx) (total A sy)) -> sorted (hyps ++ [x]).
  Proof.
    intros H F. induction H as [|a l S IH FA]; cbn; [constructor; constructor|]. constructor.
    - apply IH. intros y sy sx Hy. apply F. right. exact Hy.
    - apply Forall_app. split; [exact FA|]. constructor; [|constructor]. intros sa sb Ca Cb. apply (F a sa sb); [left; reflexivity|exact Ca|exact Cb].
  Qed.

  Lemma covers_sub (a b : list (hypothesis W)) ids : incl a b -> covers a ids -> covers b ids.
  Proof. intros I (h & Hh & S). exists h. auto. Qed.
  Lemma covers_new top ends new ids : Forall2 (child top) ends new -> covers new ids -> suffix (nodes_of top) (full ids).
  Proof.
    intros F (h & Hh & S). assert (X : exists l, nodes_of h = l :: nodes_of top).
    { clear - F Hh. induction F as [|l h' ends new (n & En & ->) F IH]; [contradiction|]. destruct Hh as [<-|Hh]; [exists l; reflexivity|auto]. }
    destruct X as (l & X). rewrite X in S. eapply suffix_trans; [apply suffix_cons|exact S].
  Qed.

  (** A complete hypothesis that comes out bounds what is left. *)
  Lemma popped_bounds agenda top rest hyps mid seg : ranked agenda -> pop agenda = Some (top, rest) -> chain L [] mid seg -> nodes_of top = full mid ->
    bounded agenda hyps -> sorted hyps -> bounded rest (hyps ++ [mid]) /\ sorted (hyps ++ [mid]).
  Proof.
    intros RK EP C E BD SO. pose proof (pop_perm pop HB _ _ _ EP) as P. destruct (ranked_rest _ _ _ _ RK EP E) as [HT FR].
    assert (IN : incl rest agenda) by (intros h Hh; apply (Permutation_in _ (Permutation_sym P)); right; exact Hh).
    assert (IT : In top agenda) by (apply (Permutation_in _ (Permutation_sym P)); left; reflexivity).
    split.
    - intros x sx ids sg Hx' Cx CI CV. apply in_app_iff in Hx'. destruct Hx' as [Hx'|[<-|[]]].
      + apply (BD x sx ids sg); auto. eapply covers_sub; eauto.
      + assert (sx = seg) by (eapply chain_fun; eauto). subst sx. destruct CV as (h & Hh & S). rewrite Forall_forall in FR. pose proof (FR h Hh) as Fh.
        rewrite <- (done_score top mid seg HT C E). apply (sl_trans _ _ HL _ (h_fx h)).
        * apply total_ok. eapply chain_oks; eauto.
        * apply fx_ok. exact Fh.
        * apply fx_ok. exact HT.
        * eapply fx_bound; eauto.
        * apply (proj2 HP _ _ _ h EP). apply IN. exact Hh.
    - apply sorted_snoc; [exact SO|]. intros y sy sx Hy Cy Cx. apply (BD y sy mid sx); auto. exists top. split; [exact IT|]. rewrite E. apply suffix_refl.
  Qed.
  Lemma extended_bounds agenda top rest hyps p q mid seg ends new l n : pop agenda = Some (top, rest) -> chain L p mid seg -> nodes_of top = mid ++ [1] -> s = p ++ q -> Forall2 (child top) ends new -> kept pop n (rest ++ new) l ->
    bounded agenda hyps -> bounded l hyps.
  Proof.
    intros EP C E Es F K BD x sx ids sg Hx' Cx CI CV. pose proof (pop_perm pop HB _ _ _ EP) as P. destruct (kept_perm pop HB _ _ _ K) as (d & PK).
    apply (BD x sx ids sg Hx' Cx CI). assert (CV' : covers (rest ++ new) ids) by (eapply covers_sub; [|exact CV]; intros h Hh; apply (Permutation_in _ (Permutation_sym PK)); apply in_app_iff; auto).
    apply covers_app in CV'. destruct CV' as [CV'|CV'].
    - eapply covers_sub; [|exact CV']. intros h Hh. apply (Permutation_in _ (Permutation_sym P)). right. exact Hh.
    - exists top. split; [apply (Permutation_in _ (Permutation_sym P)); left; reflexivity|]. eapply covers_new; eauto.
  Qed.

  Lemma run_sorted n agenda hyps out : run n agenda hyps out -> ranked agenda -> bounded agenda hyps -> sorted hyps -> sorted out.
  Proof.
    induction 1 as [hyps|agenda top rest hyps mid seg FA EP C E EN|agenda top rest hyps mid seg out FA EP C E EN R IH|agenda top rest hyps p q mid seg ends new agenda' out FA EP C E Es EE F K R IH]; intros RK BD SO; auto.
    - eapply popped_bounds; eauto.
    - destruct (popped_bounds _ _ _ _ _ _ RK EP C E BD SO) as [BD' SO']. apply IH; auto. right. eapply ranked_rest; eauto.
    - apply IH; auto; [right; eapply kept_fxok; eauto; apply (children_fxok agenda top rest p q mid seg ends new); assumption|]. eapply (extended_bounds agenda top rest hyps p q mid seg ends new); eassumption.
  Qed.

  (** What is not in the list is not better than what is. *)
  Lemma run_best n agenda hyps out : run n agenda hyps out -> light s L agenda -> ranked agenda -> bounded agenda hyps -> sorted hyps -> (forall ids sg, chain L [] ids sg -> In ids hyps \/ covers agenda ids) ->
    forall ids sg, chain L [] ids sg -> In ids out \/ forall x sx, In x out -> chain L [] x sx -> le (total A sg) (total A sx).
  Proof.
    induction 1 as [hyps|agenda top rest hyps mid seg FA EP C E EN|agenda top rest hyps mid seg out FA EP C E EN R IH|agenda top rest hyps p q mid seg ends new agenda' out FA EP C E Es EE F K R IH]; intros LI RK BD SO CV ids sg CI.
    - destruct (CV ids sg CI) as [H|(h & [] & _)]. auto.
    - destruct (popped_bounds _ _ _ _ _ _ RK EP C E BD SO) as [BD' SO']. destruct (CV ids sg CI) as [H|H]; [left; apply in_app_iff; auto|]. destruct (covers_pop pop HB _ _ _ _ EP H) as [S|S].
      + left. apply in_app_iff. right. left. rewrite E in S. eapply full_suffix; eauto.
      + right. intros x sx Hx' Cx. apply (BD' x sx ids sg); auto.
    - destruct (popped_bounds _ _ _ _ _ _ RK EP C E BD SO) as [BD' SO']. apply (IH) with (sg := sg); auto.
      + unfold light in *. rewrite (weight_perm s L _ _ (pop_perm pop HB _ _ _ EP)) in LI. unfold weight in *. cbn [map list_sum fold_right] in LI. unfold list_sum. lia.
      + right. eapply ranked_rest; eauto.
      + intros ids' sg' CI'. destruct (CV ids' sg' CI') as [H|H]; [left; apply in_app_iff; auto|]. destruct (covers_pop pop HB _ _ _ _ EP H) as [S|S]; [|auto]. left. apply in_app_iff. right. left. rewrite E in S. eapply full_suffix; eauto.
    - destruct (kept_light A m s Hs la L HH HA NL pop HB nodes _ _ _ _ _ _ _ _ _ _ _ FA EP C E Es EE F LI K) as [-> LI']. apply (IH) with (sg := sg); auto.
      + right. apply (children_fxok agenda top rest p q mid seg ends new); assumption.
      + eapply (extended_bounds agenda top rest hyps p q mid seg ends new); eassumption.
      + intros ids' sg' CI'. destruct (CV ids' sg' CI') as [H|H]; [auto|]. right. apply covers_app. destruct (covers_pop pop HB _ _ _ _ EP H) as [S|S]; [|auto]. right. apply (cover_extend A m s la L HH nodes top p q mid seg ends new ids' sg'); assumption.
  Qed.

  (** The first one is a best one, even if the agenda is cut. *)
  Lemma kept_top n all l : 0 < n -> kept pop n all l -> exists d, Permutation all (l ++ d) /\ (d = [] \/ l <> []) /\ forall a b, In a l -> In b d -> le (h_fx b) (h_fx a).
  Proof.
    intros Hn [[_ ->]|[GT E]]; [exists []; rewrite app_nil_r; repeat split; auto; intros a b _ []|].
    assert (G : forall k all l, take_best pop k all = Ok l -> exists d, Permutation all (l ++ d) /\ length l = k /\ forall a b, In a l -> In b d -> le (h_fx b) (h_fx a)).
    { clear - HP HB. induction k as [|k IH]; intros all l E; cbn [take_best] in E; [injection E as <-; exists all; repeat split; auto; intros a b []|].
      destruct (pop all) as [[h r]|] eqn:EP; [|discriminate]. cbn [of_option bind fst snd] in E. destruct (take_best pop k r) as [l'| |] eqn:E'; cbn [bind] in E; try discriminate. injection E as <-.
      destruct (IH r l' E') as (d & P & LN & B). pose proof (pop_perm pop HB _ _ _ EP) as PP. exists d. split; [rewrite PP, P; reflexivity|]. split; [cbn; congruence|].
      intros a b [<-|Ia] Ib; [|auto]. apply (proj2 HP _ _ _ b EP). apply (Permutation_in _ (Permutation_sym PP)). right. apply (Permutation_in _ (Permutation_sym P)). apply in_app_iff. auto. }
    destruct (G _ _ _ E) as (d & P & LN & B). exists d. split; [exact P|]. split; [|exact B]. right. intros ->. cbn [length] in LN. destruct (Nat.min_spec 512 (n * 10)) as [[_ X]|[_ X]]; rewrite X in LN; lia.
  Qed.

  Definition best_ids (ids : list nat) : Prop := exists sg, chain L [] ids sg /\ best A m s sg.
  Lemma best_of ids sg sg' ids' : chain L [] ids sg -> best A m s sg -> chain L [] ids' sg' -> le (total A sg) (total A sg') -> best_ids ids'.
  Proof.
    intros C B C' LE. exists sg'. split; [exact C'|]. pose proof (chain_segmentation A m s L _ _ HA C') as G'. split; [exact G'|]. intros sg2 G2. apply (sl_trans _ _ HL _ (total A sg)); [| | |apply B; exact G2|exact LE].
    - destruct (chain_make A m s L HA sg2 [] (proj1 G2)) as (ids2 & C2); [symmetry; apply (proj2 G2)|]. apply total_ok. eapply chain_oks; eauto.
    - apply total_ok. eapply chain_oks; eauto.
    - apply total_ok. eapply chain_oks; eauto.
  Qed.

  Lemma run_first n agenda hyps out : 0 < n -> run n agenda hyps out -> ranked agenda -> (hyps = [] -> exists ids, best_ids ids /\ covers agenda ids) -> (forall x r, hyps = x :: r -> best_ids x) ->
    exists x r, out = x :: r /\ best_ids x.
  Proof.
    intros Hn. induction 1 as [hyps|agenda top rest hyps mid seg FA EP C E EN|agenda top rest hyps mid seg out FA EP C E EN R IH|agenda top rest hyps p q mid seg ends new agenda' out FA EP C E Es EE F K R IH]; intros RK BE BH.
    - destruct hyps as [|x r]; [|eauto]. destruct (BE eq_refl) as (ids & _ & (h & [] & _)).
    - destruct hyps as [|x r]; [|cbn; eauto]. cbn. exists mid, []. split; [reflexivity|]. destruct (BE eq_refl) as (ids & (sg & CI & B) & CV). destruct (ranked_rest _ _ _ _ RK EP E) as [HT FR].
      apply (best_of ids sg seg mid CI B C). destruct CV as (h & Hh & S). assert (Fh : fxok h).
      { apply (Permutation_in _ (pop_perm pop HB _ _ _ EP)) in Hh. destruct Hh as [<-|Hh]; [exact HT|]. rewrite Forall_forall in FR. auto. }
      rewrite <- (done_score top mid seg HT C E). apply (sl_trans _ _ HL _ (h_fx h)).
      + apply total_ok. eapply chain_oks; eauto.
      + apply fx_ok. exact Fh.
      + apply fx_ok. exact HT.
      + eapply fx_bound; eauto.
      + apply (proj2 HP _ _ _ h EP Hh).
    - destruct (ranked_rest _ _ _ _ RK EP E) as [HT FR]. apply IH; [right; exact FR|intros X; destruct hyps; discriminate|].
      intros x r X. destruct hyps as [|x0 r0]; cbn in X; injection X as <- <-; [|eauto]. destruct (BE eq_refl) as (ids & (sg & CI & B) & CV).
      apply (best_of ids sg seg mid CI B C). destruct CV as (h & Hh & S). assert (Fh : fxok h).
      { apply (Permutation_in _ (pop_perm pop HB _ _ _ EP)) in Hh. destruct Hh as [<-|Hh]; [exact HT|]. rewrite Forall_forall in FR. auto. }
      rewrite <- (done_score top mid seg HT C E). apply (sl_trans _ _ HL _ (h_fx h)).
      + apply total_ok. eapply chain_oks; eauto.
      + apply fx_ok. exact Fh.
      + apply fx_ok. exact HT.
      + eapply fx_bound; eauto.
      + apply (proj2 HP _ _ _ h EP Hh).
    - pose proof (children_fxok _ _ _ _ _ _ _ _ _ RK EP C E Es EE F) as FX. pose proof (kept_fxok _ _ _ K FX) as FK. apply IH; [right; exact FK| |exact BH].
      intros X. destruct (BE X) as (ids & (sg & CI & B) & CV).
      assert (CV' : covers (rest ++ new) ids).
      { apply covers_app. destruct (covers_pop pop HB _ _ _ _ EP CV) as [S|S]; [|auto]. right. apply (cover_extend A m s la L HH nodes top p q mid seg ends new ids sg); assumption. }
      destruct (kept_top _ _ _ Hn K) as (d & P & NE & TOP). destruct CV' as (h & Hh & S). pose proof (Permutation_in _ P Hh) as Hh'. apply in_app_iff in Hh'.
      destruct Hh' as [Hk|Hd]; [exists ids; split; [exists sg; auto|exists h; auto]|]. destruct NE as [->|NE]; [contradiction|].
      destruct agenda' as [|a agenda']; [congruence|]. pose proof (Forall_inv FK) as Fa. destruct (fx_attained a Fa) as (ids2 & sg2 & C2 & S2 & T2). exists ids2. split; [|exists a; split; [left; reflexivity|exact S2]].
      rewrite Forall_forall in FX. apply (best_of ids sg sg2 ids2 CI B C2). rewrite T2. apply (sl_trans _ _ HL _ (h_fx h)).
      + apply total_ok. eapply chain_oks; eauto.
      + apply fx_ok. apply FX. exact Hh.
      + apply fx_ok. exact Fa.
      + eapply fx_bound; eauto.
      + apply TOP; [left; reflexivity|exact Hd].
  Qed.
End order.
