(** Encoding through the lattice. *)
From Verif Require Import Base StrBytes ListFacts AMap Utf8 EncodingModel BpeWordModel BpeWordProofs BpeModel TrieModel TrieProps UnigramModel UnigramSpec UnigramProofs UnigramProofs2 UnigramProofs3.

(** What a heap's [pop] and the caller of the public sampling may do: an element
    of the heap comes out and the others stay. *)
Definition pop_ok {W} (pop : list (hypothesis W) -> option (hypothesis W * list (hypothesis W))) : Prop :=
  forall l h r, pop l = Some (h, r) -> In h l /\ incl r l.
Definition chooser_ok {W} (c : chooser W) : Prop := match c with ByNBest _ _ pop _ => pop_ok pop | _ => True end.

Section unoptimized.
  Context {W : Type} (A : arith W) (m : unigram W) (Hwf : wf m) (s : str) (Hs : text_ok s).
  Context (ok : W -> Prop) (Hlaws : score_laws A ok).
  Context (Hok : forall t w, In (t, w) (u_vocab m) -> ok w) (Hunk : ok (unk_score A m)).

  Notation place := (list N * (list N * N * W))%type.
  Notation holds := (holds A m s).
  Notation all_to := (all_to A m s).
  Notation chain := (chain s).

  Lemma item_score it : item_ok A m it -> ok (snd it).
  Proof.
    destruct it as [[x id] w]. intros [[_ H]|(c & _ & _ & _ & ->)]; cbn; [|exact Hunk]. apply last_entry_in in H. destruct H as [_ H]. eauto.
  Qed.

  (** Every character is the text of an item. *)
  Lemma char_item c : (exists u, u_unk m = Some u) \/ In [c] (map fst (u_vocab m)) -> exists id w, item_ok A m ([c], id, w).
  Proof.
    intros H. destruct (in_dec (list_eq_dec N.eq_dec) [c] (map fst (u_vocab m))) as [I|I].
    - destruct (last_entry_exists _ _ I) as (id & w & L). exists id, w. left. split; [discriminate|exact L].
    - destruct H as [(u & U)|H]; [|contradiction]. exists u, (unk_score A m). right. eauto 8.
  Qed.

  Context (la : lattice W) (L : list place) (HH : holds la L) (HA : all_to (blen s) L).
  Context (HU : Forall (fun c => (exists u, u_unk m = Some u) \/ In [c] (map fst (u_vocab m))) s).

  Lemma char_place p c q : s = p ++ c :: q -> exists it, In (p, it) L /\ fst (fst it) = [c].
  Proof.
    intros Es. pose proof HU as H. rewrite Es in H. apply Forall_app in H. destruct H as [_ H]. apply Forall_inv in H. destruct (char_item c H) as (id & w & I).
    exists ([c], id, w). split; [|reflexivity]. apply HA. split; [|split; [exact I|exists q; exact Es]]. rewrite Es, blen_app. cbn. pose proof (len_utf8_pos c). lia.
  Qed.

  Lemma viterbi_ok : exists nodes path seg, viterbi A la = Ok (nodes, path) /\ chain L [] path seg /\ best A m s seg.
  Proof.
    apply (viterbi_best A m s Hs ok Hlaws la L HH HA).
    - intros p it H. apply HA in H. apply item_score. tauto.
    - intros p c q E. destruct (char_place _ _ _ E) as (it & H & _). eauto.
    - intros p c q E. destruct (char_place _ _ _ E) as (it & H & X). exists p, it. rewrite X. auto.
  Qed.

  (** The fixed fields survive the search. *)
  Lemma vit_pos_static ends : forall begins nodes r, vit_pos A begins ends nodes = Ok r -> statics (fst r) nodes.
  Proof.
    induction begins as [|b begins IH]; intros nodes r E; cbn [vit_pos] in E; [injection E as <-; apply statics_refl|].
    destruct (nth_error nodes b) as [nb|]; [|discriminate]. cbn [of_option bind] in E.
    match type of E with context [vit_best A ?c _ _ _] => set (cl := c) in E end.
    assert (S1 : statics cl nodes) by (apply statics_upd; intros; repeat split).
    destruct (vit_best A cl (ln_score nb) ends None) as [[[x v]|]| |]; cbn [bind] in E; try discriminate.
    - apply IH in E. eapply statics_trans; [exact E|]. eapply statics_trans; [|exact S1]. apply statics_upd. intros; repeat split.
    - injection E as <-. exact S1.
  Qed.

  Lemma vit_loop_static : forall rest pos nodes r, vit_loop A la rest pos nodes = Ok r -> statics (fst r) nodes.
  Proof.
    induction rest as [|c rest IH]; intros pos nodes r E; cbn [vit_loop] in E;
      (destruct (nth_error (la_begin la) pos) as [begins|]; [|discriminate]); (destruct (nth_error (la_end la) pos) as [ends|]; [|discriminate]); cbn [of_option bind] in E;
      (destruct (is_nil begins); [injection E as <-; apply statics_refl|]);
      (destruct (vit_pos A begins ends nodes) as [[nodes' o]| |] eqn:EV; cbn [bind] in E; try discriminate); apply vit_pos_static in EV; cbn [fst] in EV; destruct o; try (injection E as <-; exact EV).
    eapply statics_trans; [eapply IH; exact E|exact EV].
  Qed.

  Lemma viterbi_static r : viterbi A la = Ok r -> statics (fst r) (la_nodes la).
  Proof.
    unfold viterbi. destruct (vit_loop A la (la_sentence la) 0 (la_nodes la)) as [[nodes o]| |] eqn:E; cbn [bind]; try discriminate. apply vit_loop_static in E. cbn [fst] in E. destruct o.
    - destruct (eos_node la); cbn [bind]; try discriminate. destruct (nth_error nodes _) as [n|]; cbn [of_option bind]; try discriminate. destruct (ln_prev n).
      + destruct (vit_back _ _ _ _); cbn [bind]; try discriminate. intros H. injection H as <-. exact E.
      + intros H. injection H as <-. exact E.
    - intros H. injection H as <-. exact E.
  Qed.

  (** *** n-best *)
  Definition ends_at (i : nat) (p : str) : Prop := (i = 0 /\ p = []) \/ exists j p' it, i = S (S j) /\ nth_error L j = Some (p', it) /\ p = p' ++ fst (fst it).
  Definition hyp_ok (h : hypothesis W) : Prop :=
    (h_node h = 1 /\ h_next h = []) \/ exists p mid seg, h_next h = mid ++ [1] /\ chain L p mid seg /\ ends_at (h_node h) p /\ exists q, s = p ++ q.

  Lemma ids_differ j p x id w : nth_error L j = Some (p, (x, id, w)) -> N.eqb id (u_bos m) = false.
  Proof. intros E. apply N.eqb_neq. pose proof (ids_low A m Hwf s L _ _ _ _ _ HA E). rewrite (wf_bos m Hwf). lia. Qed.

  Lemma end_prefix p q ends l : s = p ++ q -> nth_error (la_end la) (blen p) = Some ends -> In l ends -> ends_at l p.
  Proof.
    intros Es E I. apply (ho_end _ _ _ _ _ HH _ _ l E) in I. destruct I as [[-> EP]|(j & p' & [[x id] w] & -> & EL & EP)].
    - left. split; [reflexivity|]. apply blen_0. exact EP.
    - right. exists j, p', (x, id, w). split; [reflexivity|]. split; [exact EL|]. cbn in *. pose proof (ho_fit _ _ _ _ _ HH) as F. rewrite Forall_forall in F. destruct (F _ (nth_error_In _ _ EL)) as (_ & q' & Es'). cbn in Es'.
      rewrite Es, app_assoc in Es'. apply blen_split_eq in Es'; [tauto|exact EP].
  Qed.

  Lemma extend_ok nodes h p mid seg ends hs : statics nodes (la_nodes la) -> h_node h :: h_next h = mid ++ [1] -> chain L p mid seg -> (exists q, s = p ++ q) -> nth_error (la_end la) (blen p) = Some ends ->
    forall e, incl e ends -> extend A nodes h e = Ok hs -> Forall hyp_ok hs.
  Proof.
    intros ST EN C (q & Es) EE e. revert hs. induction e as [|l e IH]; intros hs I E; cbn [extend] in E; [injection E as <-; constructor|].
    destruct (nth_error nodes l) as [n|]; [|discriminate]. cbn [of_option bind] in E. destruct (extend A nodes h e) as [hs'| |] eqn:E'; cbn [bind] in E; try discriminate. injection E as <-.
    constructor; [|apply IH; [intros x Hx; apply I; right; exact Hx|reflexivity]]. right. exists p, mid, seg. cbn. split; [exact EN|]. split; [exact C|]. split; [|eauto]. eapply end_prefix; eauto. apply I. left. reflexivity.
  Qed.

  Lemma take_best_ok pop : pop_ok pop -> forall k agenda l, Forall hyp_ok agenda -> take_best pop k agenda = Ok l -> Forall hyp_ok l.
  Proof.
    intros HP. induction k as [|k IH]; intros agenda l F E; cbn [take_best] in E; [injection E as <-; constructor|].
    destruct (pop agenda) as [[h r]|] eqn:EP; [|discriminate]. cbn [of_option bind fst snd] in E. destruct (take_best pop k r) as [l'| |] eqn:E'; cbn [bind] in E; try discriminate. injection E as <-.
    destruct (HP _ _ _ EP) as [I1 I2]. rewrite Forall_forall in F. constructor; [auto|]. eapply IH; [|exact E']. apply Forall_forall. auto.
  Qed.

  Definition path_ok (path : list nat) : Prop := exists seg, chain L [] path seg.

  Lemma nbest_loop_ok pop nodes n : pop_ok pop -> statics nodes (la_nodes la) -> forall fuel agenda hyps out, Forall hyp_ok agenda -> Forall path_ok hyps ->
    nbest_loop A fuel la nodes (u_bos m) n pop agenda hyps = Ok out -> Forall path_ok out.
  Proof.
    intros HP ST. induction fuel as [|fuel IH]; intros agenda hyps out FA FH E; cbn [nbest_loop] in E; [discriminate|].
    destruct (is_nil agenda); [injection E as <-; exact FH|]. destruct (pop agenda) as [[top agenda']|] eqn:EP; [|discriminate]. cbn [of_option bind] in E.
    destruct (HP _ _ _ EP) as [I1 I2]. assert (FA' : Forall hyp_ok agenda') by (apply Forall_forall; intros h Hh; rewrite Forall_forall in FA; auto).
    assert (HT : hyp_ok top) by (rewrite Forall_forall in FA; auto).
    destruct (nth_error nodes (h_node top)) as [node|] eqn:EN; [|discriminate]. cbn [of_option bind] in E.
    destruct (node_cases A m s la L HH nodes _ node ST EN) as [[E0 (SI & _)]|[[E0 (SI & SP & _)]|(j & p & x & id & w & E0 & EL & (SI & SP & _))]]; rewrite SI in E; cbn [ln_id lnode_new] in E.
    - rewrite N.eqb_refl in E. destruct HT as [[X _]|(p & mid & seg & E1 & C & EA & _)]; [congruence|]. destruct EA as [[_ ->]|(j & p' & it & X & _)]; [|congruence].
      rewrite E1 in E. replace (is_nil (mid ++ [1])) with false in E by (destruct mid; reflexivity). rewrite removelast_last in E.
      assert (FH' : Forall path_ok (hyps ++ [mid])) by (apply Forall_app; split; [exact FH|]; constructor; [exists seg; exact C|constructor]).
      destruct (length (hyps ++ [mid]) =? n); [injection E as <-; exact FH'|]. eapply IH; eauto.
    - replace (N.eqb (u_eos m) (u_bos m)) with false in E by (symmetry; apply N.eqb_neq; rewrite (wf_eos m Hwf), (wf_bos m Hwf); lia). rewrite SP in E. cbn [ln_pos lnode_new] in E.
      destruct (nth_error (la_end la) (blen s)) as [ends|] eqn:EE; [|discriminate]. cbn [of_option bind] in E.
      destruct (extend A nodes top ends) as [new| |] eqn:EX; cbn [bind] in E; try discriminate.
      assert (FN : Forall hyp_ok new).
      { destruct HT as [[_ EN']|(p & mid & seg & _ & _ & EA & _)].
        - eapply (extend_ok nodes top s [] []); [exact ST|rewrite E0, EN'; reflexivity|constructor|exists []; rewrite app_nil_r; reflexivity|exact EE|apply incl_refl|exact EX].
        - exfalso. destruct EA as [[X _]|(j & p' & it & X & _)]; congruence. }
      assert (F2 : Forall hyp_ok (agenda' ++ new)) by (apply Forall_app; auto).
      destruct (N.ltb 100000 (N.of_nat (length (agenda' ++ new)))); cbn [bind] in E; [|eapply IH; eauto].
      destruct (take_best pop (Nat.min 512 (n * 10)) (agenda' ++ new)) as [a3| |] eqn:ET; cbn [bind] in E; try discriminate. eapply IH; [|exact FH|exact E]. eapply take_best_ok; eauto.
    - rewrite (ids_differ _ _ _ _ _ EL) in E. rewrite SP in E. cbn [ln_pos lnode_new] in E.
      destruct (nth_error (la_end la) (blen p)) as [ends|] eqn:EE; [|discriminate]. cbn [of_option bind] in E.
      destruct (extend A nodes top ends) as [new| |] eqn:EX; cbn [bind] in E; try discriminate.
      assert (FN : Forall hyp_ok new).
      { destruct HT as [[X _]|(pp & mid & seg & E1 & C & EA & q & Es)]; [congruence|]. destruct EA as [[X _]|(j' & p' & it & X & EL' & ->)]; [congruence|]. rewrite E0 in X. injection X as <-. rewrite EL in EL'. injection EL' as <- <-. cbn in C, Es.
        eapply (extend_ok nodes top p (S (S j) :: mid) ((x, id, w) :: seg)); [exact ST|rewrite E0, E1; reflexivity|econstructor; eauto|exists (x ++ q); rewrite app_assoc; exact Es|exact EE|apply incl_refl|exact EX]. }
      assert (F2 : Forall hyp_ok (agenda' ++ new)) by (apply Forall_app; auto).
      destruct (N.ltb 100000 (N.of_nat (length (agenda' ++ new)))); cbn [bind] in E; [|eapply IH; eauto].
      destruct (take_best pop (Nat.min 512 (n * 10)) (agenda' ++ new)) as [a3| |] eqn:ET; cbn [bind] in E; try discriminate. eapply IH; [|exact FH|exact E]. eapply take_best_ok; eauto.
  Qed.

  Lemma eos_is : eos_node la = Ok 1.
  Proof. unfold eos_node. rewrite (ho_s _ _ _ _ _ HH). destruct (ho_eos _ _ _ _ _ HH) as (l & ->). reflexivity. Qed.
  Lemma bos_is : bos_node la = Ok 0.
  Proof. unfold bos_node. destruct (ho_bos _ _ _ _ _ HH) as (l & ->). reflexivity. Qed.

  Lemma nbest_ok fuel n pop out : pop_ok pop -> nbest A fuel la n pop = Ok out -> Forall path_ok out.
  Proof.
    intros HP E. destruct viterbi_ok as (nodes & path & seg & EV & C & _). destruct n as [|[|n]]; cbn [nbest] in E.
    - injection E as <-. constructor.
    - rewrite EV in E. cbn [bind snd] in E. injection E as <-. constructor; [exists seg; exact C|constructor].
    - rewrite eos_is in E. cbn [bind] in E. destruct (nth_error (la_nodes la) 1) as [e|]; [|discriminate]. cbn [of_option bind] in E. rewrite EV in E. cbn [bind fst] in E. rewrite bos_is in E. cbn [bind] in E.
      pose proof (viterbi_static _ EV) as ST. cbn [fst] in ST. destruct (statics_nth nodes _ 0 _ ST ltac:(rewrite (ho_nodes _ _ _ _ _ HH); reflexivity)) as (n0 & E0 & _). rewrite E0 in E. cbn [of_option bind] in E.
      destruct (node_cases A m s la L HH nodes _ n0 ST E0) as [[_ (SI & _)]|[[X _]|(j & p & x & id & w & X & _)]]; try lia. rewrite SI in E. cbn [ln_id lnode_new] in E.
      eapply nbest_loop_ok; [exact HP|exact ST| |constructor|exact E]. constructor; [|constructor]. left. auto.
  Qed.

  Lemma lat_sample_ok pick out : lat_sample la pick = Ok out -> path_ok out.
  Proof.
    unfold lat_sample. rewrite (ho_s _ _ _ _ _ HH). destruct (Nat.eqb_spec (blen s) 0) as [Z|Z].
    - intros H. injection H as <-. exists []. pose proof (blen_0 _ Z) as Es. pose proof (chain_nil s L) as C. rewrite Es in C at 2. exact C.
    - rewrite bos_is. cbn [bind]. rewrite (ho_nodes _ _ _ _ _ HH). cbn [nth_error of_option bind]. rewrite eos_is. cbn [bind ln_id lnode_new]. intros E.
      eapply (sample_chain A m Hwf s la L pick HH HA _ 1 s [] []); [constructor| | |exact E].
      + rewrite (ho_nodes _ _ _ _ _ HH). eexists. split; reflexivity.
      + exists []. rewrite app_nil_r. reflexivity.
  Qed.

  (** Picks in range exist and sampling then ends. *)
  Lemma lat_sample_total pick : (forall p q l k, s = p ++ q -> nth_error (la_end la) (blen p) = Some l -> nth_error l (pick k) <> None) -> exists out, lat_sample la pick = Ok out.
  Proof.
    intros HP. unfold lat_sample. rewrite (ho_s _ _ _ _ _ HH). destruct (blen s =? 0); [eauto|]. rewrite bos_is. cbn [bind]. rewrite (ho_nodes _ _ _ _ _ HH). cbn [nth_error of_option bind]. rewrite eos_is. cbn [bind ln_id lnode_new].
    apply (sample_total A m s la L pick HH HA HP _ 1 s []).
    - rewrite (ho_nodes _ _ _ _ _ HH). eexists. split; reflexivity.
    - exists []. rewrite app_nil_r. reflexivity.
    - lia.
  Qed.

  Lemma choose_ok c path : chooser_ok c -> choose A c la = Ok path -> path_ok path.
  Proof.
    intros HC. destruct c as [|pick|fuel n pop pick]; cbn [choose].
    - destruct viterbi_ok as (nodes & p & seg & EV & C & _). rewrite EV. cbn. intros H. injection H as <-. exists seg. exact C.
    - apply lat_sample_ok.
    - destruct (nbest A fuel la n pop) as [paths| |] eqn:E; cbn [bind]; try discriminate. apply nbest_ok in E; [|exact HC]. destruct paths as [|p0 paths].
      + destruct viterbi_ok as (nodes & p & seg & EV & C & _). rewrite EV. cbn. intros H. injection H as <-. exists seg. exact C.
      + destruct (nth_error (p0 :: paths) pick) as [p|] eqn:EN; cbn [of_option]; [|discriminate]. intros H. injection H as <-. rewrite Forall_forall in E. apply E. eapply nth_error_In; eauto.
  Qed.
End unoptimized.

Section encode.
  Context {W : Type} (A : arith W) (m : unigram W) (Hwf : wf m) (s : str) (Hs : text_ok s).
  Context (ok : W -> Prop) (Hlaws : score_laws A ok).
  Context (Hok : forall t w, In (t, w) (u_vocab m) -> ok w) (Hunk : ok (unk_score A m)).
  Context (u : N) (Hu : u_unk m = Some u).

  Lemma all_chars : Forall (fun c => (exists u, u_unk m = Some u) \/ In [c] (map fst (u_vocab m))) s.
  Proof. apply Forall_forall. intros. left. eauto. Qed.

  Lemma fuse_chain la L path seg : holds A m s la L -> chain s L [] path seg -> fuse_path m la path [] [] = Ok (pieces_of m seg).
  Proof. intros H C. rewrite (fuse_path_chain A m Hwf s la L u H Hu [] path seg C). reflexivity. Qed.

  Lemma unoptimized_pieces c pieces : chooser_ok c -> encode_unoptimized A m c s = Ok pieces -> exists seg, segmentation A m s seg /\ pieces = pieces_of m seg.
  Proof.
    intros HC. unfold encode_unoptimized. destruct (populate_holds A m Hwf s Hs) as (la & L & -> & H & AL). cbn [bind].
    destruct (choose A c la) as [path| |] eqn:EC; cbn [bind]; try discriminate. destruct (choose_ok A m Hwf s Hs ok Hlaws Hok Hunk la L H AL all_chars c path HC EC) as (seg & C).
    rewrite (wf_fuse m Hwf), (fuse_chain _ _ _ _ H C). intros E. injection E as <-. exists seg. split; [|reflexivity]. eapply chain_segmentation; eauto.
  Qed.

  Lemma unoptimized_viterbi : exists seg, encode_unoptimized A m ByViterbi s = Ok (pieces_of m seg) /\ best A m s seg.
  Proof.
    unfold encode_unoptimized. destruct (populate_holds A m Hwf s Hs) as (la & L & -> & H & AL). cbn [bind choose].
    destruct (viterbi_ok A m s Hs ok Hlaws Hok Hunk la L H AL all_chars) as (nodes & path & seg & -> & C & B). cbn [bind snd]. exists seg. rewrite (wf_fuse m Hwf), (fuse_chain _ _ _ _ H C). auto.
  Qed.

  (** With the first candidate at each step, sampling succeeds. *)
  Lemma unoptimized_sample_first : exists pieces, encode_unoptimized A m (BySample (fun _ => 0)) s = Ok pieces.
  Proof.
    unfold encode_unoptimized. destruct (populate_holds A m Hwf s Hs) as (la & L & -> & H & AL). cbn [bind choose].
    assert (EX : exists path, lat_sample la (fun _ => 0) = Ok path).
    { eapply lat_sample_total; try eassumption; try apply all_chars.
      intros p q l k Es El. destruct l as [|i l]; [|cbn; discriminate]. exfalso. destruct (exists_last_or_nil p) as [->|(p0 & c & ->)].
      - apply (proj2 (ho_end _ _ _ _ _ H _ _ 0 El)). left. auto.
      - rewrite <- app_assoc in Es. assert (CP : exists it, In (p0, it) L /\ fst (fst it) = [c]) by (eapply char_place; try eassumption; apply all_chars). destruct CP as (it & Hin & X). apply In_nth_error in Hin. destruct Hin as (j & Ej).
        apply (proj2 (ho_end _ _ _ _ _ H _ _ (S (S j)) El)). right. exists j, p0, it. rewrite X. auto. }
    destruct EX as (path & EP). rewrite EP. cbn [bind]. assert (PO : path_ok s L path) by (eapply lat_sample_ok; eauto). destruct PO as (seg & C). rewrite (wf_fuse m Hwf), (fuse_chain _ _ _ _ H C). eauto.
  Qed.
End encode.
