(** What pruning knows of each piece: its alternatives, its uses and its loss. *)
From Coq Require Import Permutation Sorted.
From Verif Require Import Base StrBytes ListFacts AMap Utf8 EncodingModel BpeModel UnigramModel UnigramSpec UnigramProofs UnigramProofs2 UnigramProofs3 UnigramProofs4 UnigramProps NBestSpec NBestProofs NBestProps MarginalModel TrainersModel UnigramTrainModel UnigramTrainSpec UnigramTrainProofs UnigramTrainProofs2 UnigramTrainProofs3 UnigramTrainProofs4.

Section ids.
  Context {W : Type} (A : arith W) (m : unigram W) (Hm : made A m).

  Lemma item_range it : item_ok A m it -> N.to_nat (snd (fst it)) < length (u_vocab m).
  Proof.
    destruct it as [[x id] w]. cbn. intros [[_ [E _]]|(c & _ & _ & E & _)]; [apply nth_error_Some; congruence|]. pose proof (wf_unk _ (made_wf A m Hm) _ E). lia.
  Qed.
  Lemma read_ids (la : lattice W) path seg : reads la path seg -> path_ids la path = Ok (seg_ids seg).
  Proof.
    unfold path_ids. induction 1 as [|k it path seg (_ & n & E & E2 & _) R IH]; [reflexivity|]. cbn [collect]. rewrite E. cbn [of_option bind]. rewrite IH. cbn [bind]. rewrite E2. reflexivity.
  Qed.
  Lemma seg_range s seg : segmentation A m s seg -> Forall (fun i => i < length (u_vocab m)) (seg_ids seg).
  Proof. intros [F _]. unfold seg_ids. apply Forall_map. eapply Forall_impl; [|exact F]. intros it. apply item_range. Qed.

  Context (u : N) (Hu : u_unk m = Some u).
  Lemma chosen_exists s : text_ok s -> exists seg, chosen A m s seg.
  Proof.
    intros Hs. destruct (search_free A m s Hm Hs (any_covered m u Hu s)) as (la & L & nodes & path & seg & E & H & AL & ND & EV & _ & C). exists seg. split; [eapply chain_segmentation; eauto|].
    exists la, nodes, path. split; [exact E|]. split; [exact EV|]. eapply chain_reads; eauto.
  Qed.
  Lemma chosen_fun s seg seg' : chosen A m s seg -> chosen A m s seg' -> seg = seg'.
  Proof. intros [_ (la & no & pa & E1 & E2 & R)] [_ (la' & no' & pa' & E1' & E2' & R')]. rewrite E1 in E1'. injection E1' as <-. rewrite E2 in E2'. injection E2' as <- <-. eapply C73_reading; eauto. Qed.

  (** It is best, if the scores of the tokens in the text can be compared. *)
  Lemma chosen_best ok s seg : score_laws A ok -> text_ok s -> (forall t id w, last_entry (u_vocab m) t id w -> inside t s -> ok w) -> ok (unk_score A m) -> chosen A m s seg -> best A m s seg.
  Proof.
    intros HL Hs Hok Hun CH. pose proof (made_wf A m Hm) as Hwf. destruct (populate_once A m Hwf s Hs) as (la & L & E & H & AL & ND).
    assert (K : forall p it, In (p, it) L -> ok (snd it)).
    { intros p it I. apply AL in I. destruct I as (_ & IO & (q & Es)). destruct it as [[x id] w]. cbn [fst snd] in *. destruct IO as [[_ LE]|(c & _ & _ & _ & ->)]; [|exact Hun]. apply (Hok x id); [exact LE|]. exists p, q. exact Es. }
    assert (P : forall p c q, s = p ++ c :: q -> exists it, In (p, it) L /\ fst (fst it) = [c]) by (intros p c q Es; exact (char_place A m s (fun _ => True) (fun _ _ _ => Logic.I) L AL (chars m s (any_covered m u Hu s)) p c q Es)).
    assert (P1 : forall p c q, s = p ++ c :: q -> exists it, In (p, it) L) by (intros p c q Es; destruct (P p c q Es) as (it & X & _); eauto).
    assert (P2 : forall p c q, s = p ++ c :: q -> exists p' it, In (p', it) L /\ p ++ [c] = p' ++ fst (fst it)) by (intros p c q Es; destruct (P p c q Es) as (it & X & Y); exists p, it; rewrite Y; auto).
    destruct (viterbi_table A m s Hs ok HL la L H AL K P1 P2) as (nodes & path & seg' & EV & V & C & B).
    replace seg with seg'; [exact B|]. apply (chosen_fun s); [|exact CH]. split; [apply B|]. exists la, nodes, path. split; [exact E|]. split; [exact EV|]. eapply chain_reads; eauto.
  Qed.

  (** *** Alternatives *)
  Context (fuel : nat) (pop : list (hypothesis W) -> option (hypothesis W * list (hypothesis W))) (HP : bag_pop pop).
  Lemma alternatives_total t : text_ok t -> length t <= 16 -> 3 * 2 ^ length t < fuel ->
    exists b ids, alternatives A fuel pop m t = Ok (b, ids) /\ Forall (fun i => i < length (u_vocab m)) ids /\
      (ids = [] \/ b = true /\ exists seg, segmentation A m t seg /\ ids = seg_ids seg) /\
      ((forall x y, segmentation A m t x -> segmentation A m t y -> x = y) -> b = true /\ ids = []).
  Proof.
    intros Ht L16 LF. destruct (C73_ends A m t Hm Ht (any_covered m u Hu t)) as (la & E & EN). destruct (EN 2 pop fuel HP LF) as (out & EO).
    destruct (C73_segmentations A m t la fuel 2 pop out Hm Ht (any_covered m u Hu t) HP E EO) as (LO & segs & F2 & ND & FS).
    destruct (chosen_exists t Ht) as (seg0 & [SG0 _]).
    assert (NE : out <> []).
    { intros ->. destruct (C73_all A m t la fuel 2 pop [] Hm Ht (any_covered m u Hu t) HP L16 E EO ltac:(cbn; lia) seg0 SG0) as (p & [] & _). }
    unfold alternatives. rewrite E. cbn [bind]. rewrite EO. cbn [bind]. destruct out as [|x [|y [|z out]]]; [congruence| | |cbn in LO; lia]; cbn [length Nat.eqb].
    - exists true, []. split; [reflexivity|]. split; [constructor|]. split; [left; reflexivity|]. auto.
    - inversion F2 as [|? sx ? l2 Rx F2']; subst. inversion F2' as [|? sy ? l3 Ry F2'']; subst. inversion F2''; subst. clear F2 F2' F2''. cbn [nth_error of_option bind].
      assert (UQ : (forall a b, segmentation A m t a -> segmentation A m t b -> a = b) -> False).
      { intros H. inversion FS as [|? ? Sx FS']; subst. inversion FS' as [|? ? Sy FS'']; subst. inversion ND as [|? ? NI _]; subst. apply NI. left. symmetry. apply H; assumption. }
      destruct (Nat.leb_spec 2 (length x)).
      + exists false, []. split; [reflexivity|]. split; [constructor|]. split; [left; reflexivity|]. intros H'. exfalso. exact (UQ H').
      + destruct (Nat.eqb_spec (length x) 1).
        * rewrite (read_ids la y sy Ry). cbn [bind]. exists true, (seg_ids sy). split; [reflexivity|]. inversion FS as [|? ? Sx FS']; subst. inversion FS' as [|? ? Sy FS'']; subst. split; [eapply seg_range; exact Sy|].
          split; [right; split; [reflexivity|]; exists sy; auto|]. intros H'. exfalso. exact (UQ H').
        * exists true, []. split; [reflexivity|]. split; [constructor|]. split; [left; reflexivity|]. auto.
  Qed.

  (** With exact scores, the alternative is the second best segmentation. *)
  Lemma alternatives_second ok t b ids : exact_laws A ok -> scores_in A ok m t -> heap_pop A pop -> text_ok t -> length t <= 16 -> 3 * 2 ^ length t < fuel -> alternatives A fuel pop m t = Ok (b, ids) ->
    (b = true /\ ids = [] /\ exists seg, forall seg', segmentation A m t seg' -> seg' = seg) \/
    (b = false /\ ids = [] /\ exists seg, best A m t seg /\ 2 <= length seg) \/
    (b = true /\ exists first second, best A m t first /\ length first = 1 /\ segmentation A m t second /\ second <> first /\ ids = seg_ids second /\
       forall seg', segmentation A m t seg' -> seg' = first \/ a_gtb A (total A seg') (total A second) = false).
  Proof.
    intros HX HI HH Ht L16 LF EA. destruct (C73_ends A m t Hm Ht (any_covered m u Hu t)) as (la & E & EN). destruct (EN 2 pop fuel HP LF) as (out & EO).
    destruct (C73_segmentations A m t la fuel 2 pop out Hm Ht (any_covered m u Hu t) HP E EO) as (LO & segs & F2 & ND & FS).
    destruct (C73_first A ok m t la fuel 2 pop out HX Hm HI Ht (any_covered m u Hu t) HH ltac:(lia) E EO) as (x & rest & sx & -> & Rx & BX).
    destruct (C73_best A ok m t la fuel 2 pop _ HX Hm HI Ht (any_covered m u Hu t) HH L16 E EO) as (segs' & F2' & BE).
    assert (segs' = segs). { clear - F2 F2'. revert segs' F2'. induction F2 as [|p sg l sl R F IH]; intros [|sg' sl'] F'; inversion F'; subst; [reflexivity|]. f_equal; [eapply C73_reading; eauto|apply IH; assumption]. }
    subst segs'. clear F2'. inversion F2 as [|? sx' ? l2 Rx' F3]; subst. assert (sx' = sx) by (eapply C73_reading; eauto). subst sx'. clear Rx'.
    assert (LX : length x = length sx) by (eapply Forall2_len; exact Rx).
    unfold alternatives in EA. rewrite E in EA. cbn [bind] in EA. rewrite EO in EA. cbn [bind] in EA. destruct rest as [|y [|z out]]; [| |cbn in LO; lia].
    - cbn in EA. injection EA as <- <-. left. split; [reflexivity|]. split; [reflexivity|]. exists sx. intros seg' Hseg. inversion F3; subst.
      destruct (C73_all A m t la fuel 2 pop [x] Hm Ht (any_covered m u Hu t) HP L16 E EO ltac:(cbn; lia) seg' Hseg) as (p & [<-|[]] & R). eapply C73_reading; eauto.
    - inversion F3 as [|? sy ? l3 Ry F4]; subst. inversion F4; subst. cbn [length Nat.eqb nth_error of_option bind] in EA. inversion ND as [|? ? NI _]; subst. inversion FS as [|? ? Sx FS']; subst. inversion FS' as [|? ? Sy _]; subst.
      assert (NE : sy <> sx) by (intros ->; apply NI; left; reflexivity).
      destruct (Nat.leb_spec 2 (length x)).
      + injection EA as <- <-. right. left. split; [reflexivity|]. split; [reflexivity|]. exists sx. split; [exact BX|lia].
      + destruct (Nat.eqb_spec (length x) 1) as [E1|N1].
        * rewrite (read_ids la y sy Ry) in EA. cbn [bind] in EA. injection EA as <- <-. right. right. split; [reflexivity|]. exists sx, sy. split; [exact BX|]. split; [lia|]. split; [exact Sy|]. split; [exact NE|]. split; [reflexivity|].
          intros seg' Hs. destruct (BE seg' Hs) as [[<-|[<-|[]]]|G]; [left; reflexivity| |right; apply G; right; left; reflexivity].
          right. destruct HX as [[HZ HA HT HTo _ _ _] _ _]. assert (OK : ok (total A sy)).
          { unfold total. assert (K : Forall (fun it => ok (snd it)) sy).
            { destruct HI as (_ & K & KU), Sy as [FI TX]. apply Forall_forall. intros [[w id] sc0] Hi. cbn [snd]. rewrite Forall_forall in FI. pose proof (FI _ Hi) as IO. cbn in IO. destruct IO as [[_ LE]|(c & _ & _ & _ & ->)]; [|exact KU].
              apply in_split in Hi. destruct Hi as (l1 & l2 & ->). apply (K w id sc0 (concat (texts l1)) (concat (texts l2)) LE). rewrite <- TX. unfold texts. rewrite map_app, concat_app. cbn [map concat fst snd]. reflexivity. }
            revert HZ. generalize (a_zero A). clear - K HA. induction K as [|it l Hk K IH]; intros z Hz; [exact Hz|]. cbn [fold_left]. apply IH. apply HA; assumption. }
          destruct (a_gtb A (total A sy) (total A sy)) eqn:G; [|reflexivity]. pose proof (HTo _ _ OK OK G); congruence.
        * exfalso. destruct x as [|a [|a' x]]; cbn in *; try lia. destruct sx; [|discriminate]. destruct Sx as [_ TX]. cbn in TX. subst t. destruct Sy as [FI TX]. destruct sy as [|[[w id] sc0] sy]; [congruence|]. inversion FI as [|? ? IO _]; subst. cbn in TX. apply app_eq_nil in TX. destruct TX as [-> _]. cbn in IO. destruct IO as [[X _]|(c & X & _)]; congruence.
  Qed.
End ids.
