(** The lattice of Unigram. *)
From Verif Require Import Base StrBytes ListFacts AMap Utf8 EncodingModel BpeWordModel BpeWordProofs BpeModel TrieModel TrieProps UnigramModel UnigramSpec UnigramProofs.

Lemma NoDup_join {A} (l l' : list A) : NoDup l -> NoDup l' -> (forall x, In x l -> In x l' -> False) -> NoDup (l ++ l').
Proof.
  intros H H' D. induction H as [|x l NI H IH]; [exact H'|]. cbn. constructor.
  - rewrite in_app_iff. intros [X|X]; [contradiction|]. apply (D x); [left; reflexivity|exact X].
  - apply IH. intros y Y. apply D. right. exact Y.
Qed.

Section lattice_proofs.
  Context {W : Type} (A : arith W) (m : unigram W) (Hwf : wf m) (s : str) (Hs : text_ok s).

  Notation place := (list N * (list N * N * W))%type.

  Definition node_of (e : place) : lnode W := let '(p, (x, id, w)) := e in lnode_new A id (blen p) (blen x) w.

  (** The lattice holds the items of [L], in order. *)
  Record holds (la : lattice W) (L : list place) : Prop := {
    ho_s : la_sentence la = s;
    ho_nodes : la_nodes la = lnode_new A (u_bos m) 0 0 (a_zero A) :: lnode_new A (u_eos m) (blen s) 0 (a_zero A) :: map node_of L;
    ho_lenb : length (la_begin la) = S (blen s);
    ho_lene : length (la_end la) = S (blen s);
    ho_begin : forall pos l i, nth_error (la_begin la) pos = Some l ->
      (In i l <-> (i = 1 /\ pos = blen s) \/ exists j p it, i = S (S j) /\ nth_error L j = Some (p, it) /\ pos = blen p);
    ho_end : forall pos l i, nth_error (la_end la) pos = Some l ->
      (In i l <-> (i = 0 /\ pos = 0) \/ exists j p it, i = S (S j) /\ nth_error L j = Some (p, it) /\ pos = blen (p ++ fst (fst it)));
    ho_bos : exists l, nth_error (la_end la) 0 = Some (0 :: l);
    ho_eos : exists l, nth_error (la_begin la) (blen s) = Some (1 :: l);
    ho_begin_nd : forall pos l, nth_error (la_begin la) pos = Some l -> NoDup l;
    ho_end_nd : forall pos l, nth_error (la_end la) pos = Some l -> NoDup l;
    ho_fit : Forall (fun e : place => fst (fst (snd e)) <> [] /\ exists q, s = fst e ++ fst (fst (snd e)) ++ q) L }.

  Lemma holds_from : holds (lat_from A s (u_bos m) (u_eos m)) [].
  Proof.
    assert (U : forall k (f : list nat -> list nat) pos l, k <= blen s -> nth_error (upd (repeat (@nil nat) (S (blen s))) k f) pos = Some l -> l = if k =? pos then f [] else []).
    { intros k f pos l L E. rewrite nth_error_upd in E. destruct (Nat.eqb_spec k pos) as [->|N].
      - rewrite nth_error_repeat_lt in E by lia. injection E as <-. reflexivity.
      - apply nth_error_In, repeat_spec in E. exact E. }
    constructor; cbn [lat_from la_sentence la_nodes la_begin la_end]; auto.
    - rewrite upd_length. apply repeat_length.
    - rewrite upd_length. apply repeat_length.
    - intros pos l i E. apply U in E; [|lia]. subst l. destruct (Nat.eqb_spec (blen s) pos) as [->|N]; cbn.
      + split; [intros [<-|[]]; auto|]. intros [[-> _]|(j & p & it & _ & X & _)]; [auto|destruct j; discriminate].
      + split; [tauto|]. intros [[-> X]|(j & p & it & _ & X & _)]; [congruence|destruct j; discriminate].
    - intros pos l i E. apply U in E; [|lia]. subst l. destruct (Nat.eqb_spec 0 pos) as [<-|N]; cbn.
      + split; [intros [<-|[]]; auto|]. intros [[-> _]|(j & p & it & _ & X & _)]; [auto|destruct j; discriminate].
      + split; [tauto|]. intros [[-> X]|(j & p & it & _ & X & _)]; [congruence|destruct j; discriminate].
    - exists []. reflexivity.
    - exists []. rewrite nth_error_upd, Nat.eqb_refl, nth_error_repeat_lt by lia. reflexivity.
    - intros pos l E. apply U in E; [|lia]. subst l. destruct (blen s =? pos); repeat constructor. intros [].
    - intros pos l E. apply U in E; [|lia]. subst l. destruct (0 =? pos); repeat constructor. intros [].
  Qed.

  Lemma snoc_nth {X} (l : list X) x k y : nth_error (l ++ [x]) k = Some y <-> nth_error l k = Some y \/ (k = length l /\ x = y).
  Proof.
    destruct (Nat.lt_ge_cases k (length l)) as [L|L].
    - rewrite nth_error_app1 by exact L. split; [auto|]. intros [H|[-> _]]; [exact H|lia].
    - rewrite nth_error_app2 by exact L. split.
      + intros H. right. destruct (k - length l) as [|n] eqn:E; cbn in H; [injection H as ->; split; [lia|reflexivity]|destruct n; discriminate].
      + intros [H|[-> ->]]; [assert (k < length l) by (apply nth_error_Some; congruence); lia|]. rewrite Nat.sub_diag. reflexivity.
  Qed.

  Lemma insert_holds la L p x id w q : holds la L -> x <> [] -> s = p ++ x ++ q ->
    exists la', lat_insert A la (blen p) (blen x) w id = Ok la' /\ holds la' (L ++ [(p, (x, id, w))]).
  Proof.
    intros H NX Es. pose proof (blen_app_pos p x NX) as LP. rewrite blen_app in LP. assert (LS : blen p + blen x <= blen s) by (rewrite Es, !blen_app; lia).
    unfold lat_insert. rewrite (ho_lenb _ _ H), (ho_lene _ _ H). replace (blen p <? S (blen s)) with true by (symmetry; apply Nat.ltb_lt; lia).
    replace (blen p + blen x <? S (blen s)) with true by (symmetry; apply Nat.ltb_lt; lia). cbn [andb].
    assert (LN : length (la_nodes la) = S (S (length L))) by (rewrite (ho_nodes _ _ H); cbn; rewrite map_length; reflexivity).
    assert (J : forall i (P : list N -> str * N * W -> Prop),
       (exists j p0 it, i = S (S j) /\ nth_error (L ++ [(p, (x, id, w))]) j = Some (p0, it) /\ P p0 it) <->
       (exists j p0 it, i = S (S j) /\ nth_error L j = Some (p0, it) /\ P p0 it) \/ (i = length (la_nodes la) /\ P p (x, id, w))).
    { intros i P. rewrite LN. split.
      - intros (j & p0 & it & -> & E & X). apply snoc_nth in E. destruct E as [E|[-> E]]; [left; eauto 7|]. injection E as <- <-. auto.
      - intros [(j & p0 & it & -> & E & X)|[-> X]]; [exists j, p0, it; repeat split; auto; apply snoc_nth; auto|]. exists (length L), p, (x, id, w). repeat split; auto. apply snoc_nth. auto. }
    eexists. split; [reflexivity|]. constructor; cbn [la_sentence la_nodes la_begin la_end].
    - apply (ho_s _ _ H).
    - rewrite (ho_nodes _ _ H), map_app. reflexivity.
    - rewrite upd_length. apply (ho_lenb _ _ H).
    - rewrite upd_length. apply (ho_lene _ _ H).
    - intros pos l i E. rewrite (J i (fun p0 _ => pos = blen p0)). rewrite nth_error_upd in E. destruct (Nat.eqb_spec (blen p) pos) as [EP|N].
      + destruct (nth_error (la_begin la) pos) as [l0|] eqn:E0; [|discriminate]. cbn in E. injection E as <-. rewrite in_app_iff, (ho_begin _ _ H _ _ i E0). cbn [In].
        split; [intros [[X|X]|[X|[]]]; auto|]. intros [X|[X|[X _]]]; auto.
      + rewrite (ho_begin _ _ H _ _ i E). split; [tauto|]. intros [X|[X|[_ X]]]; auto; congruence.
    - intros pos l i E. rewrite (J i (fun p0 it => pos = blen (p0 ++ fst (fst it)))). rewrite nth_error_upd in E. cbn [fst]. rewrite blen_app. destruct (Nat.eqb_spec (blen p + blen x) pos) as [EP|N].
      + destruct (nth_error (la_end la) pos) as [l0|] eqn:E0; [|discriminate]. cbn in E. injection E as <-. rewrite in_app_iff, (ho_end _ _ H _ _ i E0). cbn [In].
        split; [intros [[X|X]|[X|[]]]; auto|]. intros [X|[X|[X _]]]; auto.
      + rewrite (ho_end _ _ H _ _ i E). split; [tauto|]. intros [X|[X|[_ X]]]; auto; congruence.
    - destruct (ho_bos _ _ H) as (l & E). exists l. rewrite nth_error_upd. replace (blen p + blen x =? 0) with false by (symmetry; apply Nat.eqb_neq; lia). exact E.
    - destruct (ho_eos _ _ H) as (l & E). rewrite nth_error_upd. replace (blen p =? blen s) with false by (symmetry; apply Nat.eqb_neq; lia). eauto.
    - intros pos l E. rewrite nth_error_upd in E. destruct (blen p =? pos); [|apply (ho_begin_nd _ _ H _ _ E)].
      destruct (nth_error (la_begin la) pos) as [l0|] eqn:E0; [|discriminate]. cbn in E. injection E as <-. apply NoDup_join; [apply (ho_begin_nd _ _ H _ _ E0)|repeat constructor; intros []|].
      intros i Hi [<-|[]]. apply (ho_begin _ _ H _ _ _ E0) in Hi. destruct Hi as [[X _]|(j & p0 & it & X & Y & _)]; [lia|]. assert (j < length L) by (apply nth_error_Some; congruence). lia.
    - intros pos l E. rewrite nth_error_upd in E. destruct (blen p + blen x =? pos); [|apply (ho_end_nd _ _ H _ _ E)].
      destruct (nth_error (la_end la) pos) as [l0|] eqn:E0; [|discriminate]. cbn in E. injection E as <-. apply NoDup_join; [apply (ho_end_nd _ _ H _ _ E0)|repeat constructor; intros []|].
      intros i Hi [<-|[]]. apply (ho_end _ _ H _ _ _ E0) in Hi. destruct Hi as [[X _]|(j & p0 & it & X & Y & _)]; [lia|]. assert (j < length L) by (apply nth_error_Some; congruence). lia.
    - apply Forall_app. split; [apply (ho_fit _ _ H)|]. constructor; [|constructor]. cbn. eauto.
  Qed.

  (** ** Populating *)
  Lemma pop_tokens_holds p rest mblen ts : s = p ++ rest ->
    Forall (fun t => (t <> [] /\ In t (map fst (u_vocab m)) /\ exists q, rest = t ++ q) /\ text_ok t) ts ->
    forall la L single, holds la L ->
    exists la' L', pop_tokens A m (blen p) mblen (map encode_utf8 ts) la single = Ok (la', single || existsb (fun t => blen t =? mblen) ts) /\
      holds la' (L ++ L') /\ (forall e, In e L' <-> exists t id w, In t ts /\ last_entry (u_vocab m) t id w /\ e = (p, (t, id, w))) /\ (NoDup ts -> NoDup L').
  Proof.
    intros Es. induction ts as [|t ts IH]; intros F la L single H; cbn [map pop_tokens existsb].
    - exists la, []. rewrite orb_false_r, app_nil_r. split; [reflexivity|]. split; [exact H|]. split; [|constructor]. intros e. split; [intros []|]. intros (t & id & w & [] & _).
    - inversion F as [|? ? ((N & V & q & Er) & Tt) F']; subst. rewrite encode_utf8_len, from_utf8_encode by exact Tt. cbn [of_option bind].
      destruct (last_entry_exists _ _ V) as (id & w & LE). replace (aget str_eqb t (u_ids m)) with (Some id) by (symmetry; apply (wf_ids m Hwf); eauto). cbn [of_option bind].
      unfold u_item. replace (nth_error (u_vocab m) (N.to_nat id)) with (Some (t, w)) by (symmetry; apply LE). cbn [of_option bind fst snd]. rewrite str_eqb_refl. cbn [negb].
      destruct (insert_holds la L p t id w q H N Es) as (la1 & E1 & H1). rewrite E1. cbn [bind].
      destruct (IH F' la1 _ (single || (blen t =? mblen)) H1) as (la2 & L2 & E2 & H2 & I2 & N2). exists la2, ((p, (t, id, w)) :: L2). rewrite E2. split; [rewrite orb_assoc; reflexivity|].
      split; [rewrite <- app_assoc in H2; exact H2|]. split; [|intros ND; inversion ND as [|? ? NI ND']; subst; constructor; [|apply N2; exact ND']; intros X; apply I2 in X; destruct X as (t' & id' & w' & X & _ & Y); injection Y as -> _ _; contradiction].
      intros e. cbn [In]. rewrite I2. split.
      + intros [<-|(t' & id' & w' & X & Y & Z)]; [exists t, id, w; auto|exists t', id', w'; auto].
      + intros (t' & id' & w' & [<-|X] & Y & Z); [left; destruct (last_entry_fun _ _ _ _ _ _ LE Y) as [-> ->]; auto|right; eauto 8].
  Qed.

  (** All the items that start before [k]. *)
  Definition all_to (k : nat) (L : list place) : Prop :=
    forall p it, In (p, it) L <-> blen p < k /\ item_ok A m it /\ exists r, s = p ++ fst (fst it) ++ r.

  Lemma pop_loop_holds rest : forall p la L, s = p ++ rest -> holds la L -> all_to (blen p) L -> NoDup L ->
    exists la' L', pop_loop A m rest (blen p) la = Ok la' /\ holds la' L' /\ all_to (blen s) L' /\ NoDup L'.
  Proof.
    induction rest as [|c rest IH]; intros p la L Es H AL NL; cbn [pop_loop].
    - exists la, L. rewrite app_nil_r in Es. replace (blen s) with (blen p) by (rewrite Es; reflexivity). auto.
    - assert (Hr : text_ok (c :: rest)) by (rewrite Es in Hs; apply Forall_app in Hs; tauto).
      destruct (search_tokens m Hwf (c :: rest) Hr) as (ts & E & I & Ft). rewrite E.
      assert (F : Forall (fun t => (t <> [] /\ In t (map fst (u_vocab m)) /\ exists q, c :: rest = t ++ q) /\ text_ok t) ts).
      { apply Forall_forall. intros t Ht. split; [apply I; exact Ht|]. rewrite Forall_forall in Ft. apply Ft. exact Ht. }
      destruct (pop_tokens_holds p (c :: rest) (len_utf8 c) ts Es F la L false H) as (la1 & L1 & E1 & H1 & I1 & N1). rewrite E1. cbn [bind orb].
      assert (D1 : NoDup (L ++ L1)).
      { apply NoDup_join; [exact NL| |].
        - apply N1. apply (NoDup_map_inv encode_utf8). rewrite <- E, (wf_trie m Hwf). apply C44_increasing.
        - intros [p' it] X Y. apply AL in X. apply I1 in Y. destruct Y as (t & id & w & _ & _ & Y). injection Y as -> _. lia. }
      assert (SINGLE : existsb (fun t => blen t =? len_utf8 c) ts = true <-> In [c] (map fst (u_vocab m))).
      { rewrite existsb_exists. split.
        - intros (t & Ht & B). apply Nat.eqb_eq in B. apply I in Ht. destruct Ht as (N & V & q & Eq). destruct t as [|d t]; [congruence|]. cbn in Eq. injection Eq as <- Eq.
          cbn in B. assert (t = []) by (apply blen_0; lia). subst t. exact V.
        - intros V. exists [c]. split; [apply I; repeat split; [discriminate|exact V|exists rest; reflexivity]|]. cbn. apply Nat.eqb_eq. lia. }
      assert (STEP : forall p' z, s = p' ++ z -> blen p' < blen p + len_utf8 c <-> blen p' < blen p \/ p' = p).
      { intros p' z Ez. pose proof (len_utf8_pos c). split; [|intros [H'| ->]; lia]. intros LL. destruct (Nat.lt_ge_cases (blen p') (blen p)) as [L1'|L1']; [auto|right].
        rewrite Es in Ez. destruct (blen_prefix_cmp _ _ _ _ Ez L1') as (y & -> & Ey). destruct y as [|d y]; [apply app_nil_r|]. cbn in Ey. injection Ey as <- _. rewrite blen_app in LL. cbn in LL. lia. }
      assert (HERE : forall x id w, item_ok A m (x, id, w) /\ (exists r, s = p ++ x ++ r) <->
         (exists t id' w', In t ts /\ last_entry (u_vocab m) t id' w' /\ (x, id, w) = (t, id', w')) \/ (x = [c] /\ ~ In [c] (map fst (u_vocab m)) /\ u_unk m = Some id /\ w = unk_score A m)).
      { intros x id w. split.
        - intros [[[N LE]|(c' & -> & NV & U & ->)] (r & Er)]; rewrite Es in Er; apply app_inv_head in Er.
          + left. exists x, id, w. repeat split; try apply LE. apply I. repeat split; [exact N|apply (last_entry_in _ _ _ _ LE)|eauto].
          + cbn in Er. injection Er as <- <-. right. auto.
        - intros [(t & id' & w' & Ht & LE & E')|(-> & NV & U & ->)].
          + injection E' as -> -> ->. apply I in Ht. destruct Ht as (N & V & q & Eq). split; [left; auto|]. exists q. rewrite Es, Eq. reflexivity.
          + split; [right; exists c; auto|]. exists rest. exact Es. }
      pose proof (len_utf8_pos c) as LC.
      assert (NEXT : forall la2 L2, holds la2 L2 -> all_to (blen p + len_utf8 c) L2 -> NoDup L2 -> exists la' L', pop_loop A m rest (blen p + len_utf8 c) la2 = Ok la' /\ holds la' L' /\ all_to (blen s) L' /\ NoDup L').
      { intros la2 L2 H2 A2 D2. specialize (IH (p ++ [c]) la2 L2). rewrite blen_app in IH. cbn [blen] in IH. rewrite Nat.add_0_r in IH. apply IH; [rewrite <- app_assoc; exact Es|exact H2|exact A2|exact D2]. }
      assert (BASE : forall extra, (forall e, In e extra <-> exists x id w, e = (p, (x, id, w)) /\ x = [c] /\ ~ In [c] (map fst (u_vocab m)) /\ u_unk m = Some id /\ w = unk_score A m) ->
        all_to (blen p + len_utf8 c) ((L ++ L1) ++ extra)).
      { intros extra X p' [[x id] w]. rewrite !in_app_iff, (AL p' (x, id, w)), I1, X. cbn [fst]. split.
        - intros [[(a & b & r & d)|(t & id' & w' & a & b & E')]|(x' & id' & w' & E' & a)].
          + split; [lia|]. eauto.
          + injection E' as -> -> -> ->. destruct (proj2 (HERE t id' w')) as [Hi Hr']; [left; eauto 8|]. split; [lia|]. auto.
          + injection E' as -> -> -> ->. destruct (proj2 (HERE x' id' w')) as [Hi Hr']; [right; exact a|]. split; [lia|]. auto.
        - intros (a & b & r & Er). apply (STEP p' _ Er) in a. destruct a as [a| ->]; [left; left; eauto|].
          destruct (proj1 (HERE x id w)) as [(t & id' & w' & c1 & c2 & E')|c1]; [eauto| |].
          + injection E' as -> -> ->. left. right. eauto 8.
          + right. exists x, id, w. auto. }
      destruct (existsb (fun t => blen t =? len_utf8 c) ts) eqn:EX.
      + assert (V : In [c] (map fst (u_vocab m))) by (apply SINGLE; reflexivity). cbn [bind]. apply (NEXT la1 ((L ++ L1) ++ [])).
        * rewrite app_nil_r. exact H1.
        * apply BASE. intros e. split; [intros []|]. intros (x & id & w & _ & _ & NV & _). contradiction.
        * rewrite app_nil_r. exact D1.
      + assert (NV : ~ In [c] (map fst (u_vocab m))) by (intros V; apply SINGLE in V; discriminate).
        destruct (u_unk m) as [unk|] eqn:EU.
        * destruct (insert_holds la1 (L ++ L1) p [c] unk (unk_score A m) rest H1 ltac:(discriminate) Es) as (la2 & E2 & H2). cbn [blen] in E2. rewrite Nat.add_0_r in E2. rewrite E2. cbn [bind].
          apply (NEXT la2 _ H2).
          2:{ apply NoDup_join; [exact D1|repeat constructor; intros []|]. intros e X [<-|[]]. apply in_app_iff in X. destruct X as [X|X]; [apply AL in X; lia|].
              apply I1 in X. destruct X as (t & id & w & X & _ & Y). injection Y as <- _ _. apply I in X. tauto. }
          apply BASE. intros e. cbn [In]. split; [intros [<-|[]]; exists [c], unk, (unk_score A m); auto|]. intros (x & id & w & -> & -> & _ & U & ->). injection U as <-. auto.
        * cbn [bind]. apply (NEXT la1 ((L ++ L1) ++ [])); [rewrite app_nil_r; exact H1| |rewrite app_nil_r; exact D1]. apply BASE. intros e. split; [intros []|]. intros (x & id & w & _ & _ & _ & U & _). discriminate.
  Qed.

  Lemma populate_once : exists la L, populate_nodes A m s = Ok la /\ holds la L /\ all_to (blen s) L /\ NoDup L.
  Proof.
    unfold populate_nodes. apply (pop_loop_holds s [] _ []); [reflexivity|apply holds_from| |constructor]. intros p it. cbn. split; [tauto|lia].
  Qed.
  Lemma populate_holds : exists la L, populate_nodes A m s = Ok la /\ holds la L /\ all_to (blen s) L.
  Proof. destruct populate_once as (la & L & E & H & AL & _). eauto. Qed.

  (** ** Complete paths *)
  Inductive chain (L : list place) : str -> list nat -> list (str * N * W) -> Prop :=
  | chain_nil : chain L s [] []
  | chain_cons : forall j p x id w path seg, nth_error L j = Some (p, (x, id, w)) -> chain L (p ++ x) path seg -> chain L p (S (S j) :: path) ((x, id, w) :: seg).

  Lemma chain_seg L p path seg : chain L p path seg -> s = p ++ concat (texts seg).
  Proof.
    induction 1 as [|j p x id w path seg E C IH]; [cbn; rewrite app_nil_r; reflexivity|]. cbn. rewrite app_assoc. exact IH.
  Qed.

  Lemma chain_items L p path seg : chain L p path seg -> Forall (fun it => exists p', In (p', it) L) seg.
  Proof. induction 1 as [|j p x id w path seg E C IH]; constructor; [|exact IH]. exists p. apply nth_error_In in E. exact E. Qed.

  Lemma chain_segmentation L path seg : all_to (blen s) L -> chain L [] path seg -> segmentation A m s seg.
  Proof.
    intros AL C. split; [|symmetry; apply (chain_seg _ _ _ _ C)]. eapply Forall_impl; [|apply (chain_items _ _ _ _ C)]. intros it (p' & H). apply AL in H. tauto.
  Qed.

  Lemma node_entry la L j p x id w : holds la L -> nth_error L j = Some (p, (x, id, w)) -> nth_error (la_nodes la) (S (S j)) = Some (lnode_new A id (blen p) (blen x) w) /\
    lat_piece la (S (S j)) = Ok x.
  Proof.
    intros H E. assert (EN : nth_error (la_nodes la) (S (S j)) = Some (lnode_new A id (blen p) (blen x) w)).
    { rewrite (ho_nodes _ _ H). cbn. rewrite nth_error_map, E. reflexivity. }
    split; [exact EN|]. unfold lat_piece. rewrite EN. cbn [of_option bind ln_pos ln_len lnode_new]. rewrite (ho_s _ _ H).
    pose proof (ho_fit _ _ H) as F. rewrite Forall_forall in F. destruct (F _ (nth_error_In _ _ E)) as (_ & q & Es). cbn in Es. rewrite Es, str_get_app. reflexivity.
  Qed.

  Lemma join_true_true a b l : join_marked ((a, true) :: (b, true) :: l) = join_marked ((a ++ b, true) :: l).
  Proof.
    cbn [join_marked]. destruct (join_marked l) as [|y ys]; [reflexivity|]. cbn [marked_first]. destruct (marked_first l); cbn; [rewrite app_assoc|]; reflexivity.
  Qed.

  Lemma fuse_path_chain la L unk : holds la L -> u_unk m = Some unk -> forall p path seg, chain L p path seg -> forall token results,
    fuse_path m la path token results = Ok (results ++ join_marked ((if is_nil token then [] else [(token, true)]) ++ map (mark m) seg)).
  Proof.
    intros H EU. induction 1 as [|j p x id w path seg E C IH]; intros token results; cbn [fuse_path].
    - destruct token; cbn; rewrite ?app_nil_r; reflexivity.
    - destruct (node_entry la L _ _ _ _ _ H E) as [E1 E2]. rewrite E2. cbn [bind]. rewrite E1. cbn [of_option bind ln_id lnode_new]. rewrite EU.
      pose proof (ho_fit _ _ H) as F. rewrite Forall_forall in F. destruct (F _ (nth_error_In _ _ E)) as (NX & _). cbn in NX.
      cbn [map]. unfold mark at 1. cbn [fst snd]. unfold is_unk. rewrite EU, (wf_fuse m Hwf). cbn [andb].
      destruct (N.eqb id unk).
      + rewrite IH. destruct token as [|t token].
        * cbn [app is_nil]. destruct x; [congruence|reflexivity].
        * cbn [is_nil app]. replace (is_nil ((t :: token) ++ x)) with false by reflexivity. cbn [app]. f_equal. f_equal. symmetry. apply (join_true_true (t :: token) x).
      + rewrite IH. cbn [is_nil app]. destruct token as [|t token]; cbn [is_nil app]; rewrite <- !app_assoc; [reflexivity|]. cbn [app].
        pose proof (join_app_false [(t :: token, true)] x (map (mark m) seg)) as J. cbn [app] in J. rewrite J. reflexivity.
  Qed.

  (** ** Sampling *)
  Lemma ids_low L j p x id w : all_to (blen s) L -> nth_error L j = Some (p, (x, id, w)) -> (id < N.of_nat (length (u_vocab m)))%N.
  Proof.
    intros AL E. apply nth_error_In in E. apply AL in E. destruct E as (_ & [[_ [X _]]|(c & _ & _ & U & _)] & _).
    - assert (N.to_nat id < length (u_vocab m)) by (apply nth_error_Some; congruence). lia.
    - apply (wf_unk m Hwf _ U).
  Qed.

  Lemma sample_chain la L pick : holds la L -> all_to (blen s) L -> forall fuel node p acc seg out,
    chain L p (rev acc) seg -> (exists n, nth_error (la_nodes la) node = Some n /\ ln_pos n = blen p) -> (exists q, s = p ++ q) ->
    sample_loop fuel la pick (u_bos m) node acc = Ok out -> exists seg', chain L [] out seg'.
  Proof.
    intros H AL. induction fuel as [|fuel IH]; intros node p acc seg out C (n & En & EP) (q & Es) E; cbn [sample_loop] in E; [discriminate|].
    rewrite En in E. cbn [of_option bind] in E. rewrite EP in E. destruct (nth_error (la_end la) (blen p)) as [ends|] eqn:EE; [|discriminate]. cbn [of_option bind] in E.
    destruct (nth_error ends (pick (length acc))) as [next|] eqn:EN; [|discriminate]. cbn [of_option bind] in E. destruct (nth_error (la_nodes la) next) as [n'|] eqn:EN'; [|discriminate]. cbn [of_option bind] in E.
    apply nth_error_In in EN. apply (ho_end _ _ H _ _ next EE) in EN. destruct EN as [[-> EP0]|(j & p' & [[x id] w] & -> & EL & EB)].
    - rewrite (ho_nodes _ _ H) in EN'. cbn in EN'. injection EN' as <-. cbn in E. rewrite N.eqb_refl in E. injection E as <-. assert (p = []) by (apply blen_0; exact EP0). subst p. eauto.
    - cbn [fst] in EB. destruct (node_entry la L _ _ _ _ _ H EL) as [E1 _]. rewrite E1 in EN'. injection EN' as <-. cbn [ln_id lnode_new] in E.
      pose proof (ids_low _ _ _ _ _ _ AL EL) as LI. rewrite (wf_bos m Hwf) in E. replace (N.eqb id (N.of_nat (length (u_vocab m)) + 1)) with false in E by (symmetry; apply N.eqb_neq; lia).
      rewrite <- (wf_bos m Hwf) in E.
      pose proof (ho_fit _ _ H) as F. rewrite Forall_forall in F. destruct (F _ (nth_error_In _ _ EL)) as (NX & q' & Es'). cbn in Es'.
      assert (EPP : p = p' ++ x) by (rewrite Es, app_assoc in Es'; apply blen_split_eq in Es'; [tauto|exact EB]).
      apply (IH (S (S j)) p' (acc ++ [S (S j)]) ((x, id, w) :: seg)) in E; [exact E| | |eauto].
      + rewrite rev_app_distr. cbn. econstructor; [exact EL|]. rewrite <- EPP. exact C.
      + eexists. split; [exact E1|]. reflexivity.
  Qed.

  (** With a candidate at every position and picks within range, it does not panic. *)
  Lemma sample_total la L pick : holds la L -> all_to (blen s) L ->
    (forall p q l k, s = p ++ q -> nth_error (la_end la) (blen p) = Some l -> nth_error l (pick k) <> None) ->
    forall fuel node p acc, (exists n, nth_error (la_nodes la) node = Some n /\ ln_pos n = blen p) -> (exists q, s = p ++ q) -> blen p < fuel ->
    exists out, sample_loop fuel la pick (u_bos m) node acc = Ok out.
  Proof.
    intros H AL HP. induction fuel as [|fuel IH]; intros node p acc (n & En & EP) (q & Es) LF; [lia|]. cbn [sample_loop].
    rewrite En. cbn [of_option bind]. rewrite EP. destruct (nth_error (la_end la) (blen p)) as [ends|] eqn:EE.
    2:{ apply nth_error_None in EE. rewrite (ho_lene _ _ H), Es, blen_app in EE. lia. }
    cbn [of_option bind]. destruct (nth_error ends (pick (length acc))) as [next|] eqn:EN; [|exfalso; eapply HP; eauto]. cbn [of_option bind].
    apply nth_error_In in EN. apply (ho_end _ _ H _ _ next EE) in EN. destruct EN as [[-> EP0]|(j & p' & [[x id] w] & -> & EL & EB)].
    - rewrite (ho_nodes _ _ H). cbn. rewrite N.eqb_refl. eauto.
    - destruct (node_entry la L _ _ _ _ _ H EL) as [E1 _]. rewrite E1. cbn [of_option bind ln_id lnode_new]. destruct (N.eqb id (u_bos m)); [eauto|].
      pose proof (ho_fit _ _ H) as F. rewrite Forall_forall in F. destruct (F _ (nth_error_In _ _ EL)) as (NX & q' & Es'). cbn in NX, Es'. pose proof (blen_app_pos p' x NX). cbn [fst] in EB.
      apply (IH _ p'); [eexists; split; [exact E1|reflexivity]|eauto|lia].
  Qed.
End lattice_proofs.
