(** C59, C64: the trainers of WordLevel, WordPiece and Unigram. *)
From Verif Require Import Base StrBytes ListFacts AMap Utf8 EncodingModel BpeWordModel BpeWordSpec BpeModel BpeSpec BpeProofs BpeProps BpeTrainModel BpeTrainSpec BpeTrainProofs BpeTrainProofs5 BpeTrainProps TrieModel UnigramModel UnigramSpec UnigramProofs UnigramProps WordPieceModel WordPieceSpec WordPieceProps TrainersModel TrainersSpec TrainersProofs TrainersProofs2.
From Coq Require Import ZArith.

(** ** WordLevel *)

(** At most as many tokens as asked for. *)
Theorem C59_wordlevel_size tr wc m : length (l_vocab (fst (wl_train tr wc m))) <= lt_vocab_size tr.
Proof. cbn [wl_train fst l_vocab]. etransitivity; [apply enumerate_len|]. cbn [length]. rewrite firstn_length. lia. Qed.

Lemma filter_sorted {X} (R : X -> X -> Prop) f l : StronglySorted R l -> StronglySorted R (filter f l).
Proof.
  induction 1 as [|a l H IH F]; [constructor|]. cbn [filter]. destruct (f a); [|exact IH]. constructor; [exact IH|]. rewrite Forall_forall in *. intros x Hx. apply filter_In in Hx. apply F. apply Hx.
Qed.
Lemma filter_perm {X} (f : X -> bool) l l' : Permutation l l' -> Permutation (filter f l) (filter f l').
Proof.
  induction 1 as [|a l l' H IH|a b l|l l1 l2 H1 IH1 H2 IH2]; [constructor| | |etransitivity; eassumption]; cbn [filter].
  - destruct (f a); [constructor|]; exact IH.
  - destruct (f a), (f b); try apply Permutation_refl. apply perm_swap.
Qed.
Lemma filter_names_nodup (f : str * N -> bool) l : NoDup (map fst l) -> NoDup (map fst (filter f l)).
Proof.
  induction l as [|a l IH]; cbn [map filter]; intros D; [constructor|]. inversion D as [|? ? N1 D']; subst. destruct (f a); [|apply IH; exact D']. cbn [map]. constructor; [|apply IH; exact D'].
  intros H. apply N1. apply in_map_iff in H. destruct H as (x & E & H). apply filter_In in H. apply in_map_iff. exists x. tauto.
Qed.

Lemma nodup_app_l {X} (a b : list X) : NoDup (a ++ b) -> NoDup a.
Proof. induction b as [|x b IH] using rev_ind; [rewrite app_nil_r; auto|]. rewrite app_assoc. intros D. apply IH. pose proof (NoDup_remove (a ++ b) [] x D) as [D1 _]. rewrite app_nil_r in D1. exact D1. Qed.

(** Distinct special tokens that are no words: the tokens are numbered from 0
    without gaps, the special ones first, then the words that are frequent
    enough, the more frequent first. *)
Theorem C59_wordlevel tr wc m :
  NoDup (map fst wc) -> Forall (fun wn => text_ok (fst wn)) wc -> NoDup (lt_special tr) ->
  (forall t n, In t (lt_special tr) -> In (t, n) wc -> (n < lt_min_frequency tr)%N) ->
  let (m', sp) := wl_train tr wc m in
  sp = lt_special tr /\ l_unk m' = l_unk m /\
  exists words, Permutation (filter (fun wn => N.leb (lt_min_frequency tr) (snd wn)) wc) words /\ StronglySorted word_before words /\
    numbered (wl_token_to_id m') (wl_id_to_token m') (firstn (lt_vocab_size tr) (lt_special tr ++ map fst words)).
Proof.
  intros D T DS NS. cbn [wl_train]. split; [reflexivity|]. split; [reflexivity|]. set (f := fun wn : str * N => N.leb (lt_min_frequency tr) (snd wn)).
  pose proof (wl_sort_perm wc) as P. exists (filter f (wl_sort wc)). split; [apply filter_perm; exact P|].
  assert (D1 : NoDup (map fst (wl_sort wc))) by (eapply Permutation_NoDup; [apply Permutation_map; exact P|exact D]).
  split; [apply filter_sorted, sorted_strict; [exact D1|eapply Permutation_Forall; [exact P|exact T]|apply wl_sort_sorted]|].
  assert (DT : NoDup (firstn (lt_vocab_size tr) (lt_special tr ++ map fst (filter f (wl_sort wc))))).
  { assert (DA : NoDup (lt_special tr ++ map fst (filter f (wl_sort wc)))).
    { apply NoDup_app_intro; [exact DS|apply filter_names_nodup; exact D1|]. intros t H1 H2. apply in_map_iff in H2. destruct H2 as ([t' n] & E & H2). cbn [fst] in E. subst t'. apply filter_In in H2. destruct H2 as [H2 H3].
      apply (Permutation_in _ (Permutation_sym P)) in H2. specialize (NS t n H1 H2). unfold f in H3. cbn [snd] in H3. apply N.leb_le in H3. lia. }
    revert DA. generalize (lt_special tr ++ map fst (filter f (wl_sort wc))). clear. intros l. generalize (lt_vocab_size tr). intros n D. rewrite <- (firstn_skipn n l) in D. apply nodup_app_l in D. exact D. }
  unfold wl_token_to_id, wl_id_to_token. cbn [l_vocab]. pose proof (enumerate_indexed (firstn (lt_vocab_size tr) (lt_special tr ++ map fst (filter f (wl_sort wc)))) [] DT) as E. cbn [length app] in E. unfold indexed at 1 in E. cbn [length seq map combine] in E.
  fold f. rewrite E. apply indexed_numbered. exact DT.
Qed.

(** The order of the counted words does not matter. *)
Theorem C59_wordlevel_order tr wc wc' m :
  NoDup (map fst wc) -> Forall (fun wn => text_ok (fst wn)) wc -> Permutation wc wc' -> wl_train tr wc m = wl_train tr wc' m.
Proof.
  intros D T P. unfold wl_train. replace (wl_sort wc') with (wl_sort wc); [reflexivity|].
  assert (S1 : forall l, Permutation wc l -> StronglySorted word_before (wl_sort l)).
  { intros l Pl. assert (Q : Permutation wc (wl_sort l)) by (etransitivity; [exact Pl|apply wl_sort_perm]). apply sorted_strict; [eapply Permutation_NoDup; [apply Permutation_map; exact Q|exact D]|eapply Permutation_Forall; [exact Q|exact T]|apply wl_sort_sorted]. }
  apply (sorted_unique word_before (fun wn => text_ok (fst wn))).
  - intros a b Ta Tb. apply word_before_asym; assumption.
  - eapply Permutation_Forall; [apply wl_sort_perm|exact T].
  - apply S1. apply Permutation_refl.
  - apply S1. exact P.
  - etransitivity; [apply Permutation_sym, wl_sort_perm|]. etransitivity; [exact P|apply wl_sort_perm].
Qed.

(** b 3, a 3, c 5, d 1; minimum 2. *)
Definition ex_wl_words : list (str * N) := [([98], 3); ([97], 3); ([99], 5); ([100], 1)]%N.
Example C59_wordlevel_example :
  NoDup (map fst ex_wl_words) /\ Forall (fun wn => text_ok (fst wn)) ex_wl_words /\
  l_vocab (fst (wl_train (mkWlt 2 3 [[63%N]]) ex_wl_words (mkWL [] [63%N]))) = [([63], 0); ([99], 1); ([97], 2)]%N.
Proof. split; [|split; [repeat constructor|vm_compute; reflexivity]]. repeat constructor; cbn; intuition discriminate. Qed.

(** A special token that is also a word leaves an id without a token. *)
Theorem C59_wordlevel_gap_refuted : exists tr wc m',
  wl_train tr wc (mkWL [] [63%N]) = (m', [[97%N]]) /\ NoDup (map fst wc) /\ NoDup (lt_special tr) /\
  wl_id_to_token m' 0%N = None /\ wl_token_to_id m' [97%N] = Some 1%N.
Proof.
  exists (mkWlt 0 9 [[97%N]]), [([97], 2); ([98], 1)]%N. eexists. split; [reflexivity|]. split; [repeat constructor; cbn; intuition discriminate|]. split; [repeat constructor; cbn; intuition discriminate|]. split; [vm_compute; reflexivity|vm_compute; reflexivity].
Qed.

(** ** WordPiece *)

(** The vocabulary is that of BPE training: numbered without gaps; at most as
    many tokens as asked for, unless special tokens and characters, each of them
    in two forms, are more.  The prefix is that of the trainer, the rest of the
    model is kept. *)
Theorem C59_wordpiece by_count pop tr wc m p :
  count_sort by_count -> train_heap pop -> small_corpus wc -> tr_prefix tr = Some p -> tr_suffix tr = None ->
  exists m' toks al, wp_train by_count pop tr wc m = Ok (m', tr_special tr) /\ kept_alphabet tr wc al /\
    numbered (wp_token_to_id m') (wp_id_to_token m') toks /\ length (w_vocab m') = length toks /\
    length toks <= Nat.max (tr_vocab_size tr) (2 * (length (tr_special tr) + length al)) /\
    w_prefix m' = p /\ w_unk m' = w_unk m /\ w_max m' = w_max m.
Proof.
  intros HC HP SC EP ES. destruct (C37_train by_count pop tr wc bpe_default HC HP SC) as (b & toks & first & rest & al & ms & ET & V & EQ & KA & FT & LE & _ & _ & _ & PB & _).
  unfold wp_train. rewrite ET. cbn [bind]. eexists. exists toks, al. split; [reflexivity|]. split; [exact KA|]. cbn [w_vocab w_prefix w_unk w_max from_bpe]. rewrite PB, EP.
  assert (LF : length first <= 2 * (length (tr_special tr) + length al)).
  { destruct FT as (extra & -> & HX). set (base := tr_special tr ++ map (fun c => [c]) al).
    assert (LB : length base = length (tr_special tr) + length al) by (unfold base; rewrite app_length, map_length; reflexivity).
    assert (LL : length (base ++ map (fun t => p ++ t) base) = 2 * (length (tr_special tr) + length al)) by (rewrite app_length, map_length; lia).
    rewrite <- LL. apply NoDup_incl_length; [apply distinct_nodup|]. intros t Ht. apply (proj1 (distinct_in _ _)) in Ht. rewrite app_assoc in Ht. fold base in Ht. apply in_app_or in Ht. destruct Ht as [Ht|Ht]; [apply in_or_app; auto|].
    destruct (HX t Ht) as (w & n & pre & c & q & _ & _ & K & ->). assert (KB : In [c] base) by (unfold base; apply in_or_app; destruct K as [K|K]; [left; exact K|right; apply in_map_iff; eauto]).
    unfold affixed. rewrite EP, ES. replace (if is_nil q then [] else []) with (@nil N) by (destruct (is_nil q); reflexivity). rewrite app_nil_r. apply in_or_app. destruct (is_nil pre); [left; exact KB|right; apply in_map; exact KB]. }
  destruct V as (ND & V1 & V2).
  assert (NB : NoDup (map fst (b_vocab b)) /\ NoDup (map snd (b_vocab b)) /\ b_vocab_r b = reverse_vocab (b_vocab b) /\ length (b_vocab b) = length toks).
  { destruct (run_result _ _ _ _ _ _ _ HC HP SC ET) as (al' & st & wtu & st' & _ & _ & VK & ->). cbn [BpeTrainProofs8.result b_vocab b_vocab_r] in *. rewrite indexed_keys. split; [apply VK|]. split; [apply BpeTrainProofs8.indexed_ids_nodup|]. split; [reflexivity|]. rewrite indexed_len.
    assert (E : v_words (ts_voc st') = toks); [|rewrite E; reflexivity]. apply nth_error_ext. intros i. destruct (nth_error toks i) as [t|] eqn:X.
    - pose proof (proj2 (V1 t (N.of_nat i))) as Y. rewrite Nat2N.id in Y. apply Y in X. apply indexed_in in X. rewrite Nat2N.id in X. exact X.
    - destruct (nth_error (v_words (ts_voc st')) i) as [t|] eqn:Z; [|reflexivity]. rewrite <- (Nat2N.id i) in Z. apply indexed_in in Z. apply V1 in Z. rewrite Nat2N.id in Z. congruence. }
  destruct NB as (N1 & N2 & ER & LN).
  split; [|split; [exact LN|split; [lia|auto]]]. split; [exact ND|]. unfold wp_token_to_id, wp_id_to_token. cbn [w_vocab]. split.
  - intros t i. rewrite <- V1. split; [apply (aget_In _ str_eqb_eq)|apply (In_aget _ str_eqb_eq); exact N1].
  - intros i. destruct (aget N.eqb i (reverse_vocab (b_vocab b))) as [t|] eqn:E.
    + apply reverse_vocab_in, V1 in E. symmetry. exact E.
    + destruct (nth_error toks (N.to_nat i)) as [t|] eqn:E2; [|reflexivity]. apply V1, reverse_vocab_has in E2. destruct E2 as (t' & E2). congruence.
Qed.

Definition ex_wp_trainer : trainer := mkTrainer 2 20 [[91; 85; 93]%N] None [] (Some [35; 35]%N) None None.
Example C59_wordpiece_example : exists m',
  wp_train sort_count pop_first ex_wp_trainer ex_words (mkWP [] [91; 85; 93]%N [35; 35]%N 100) = Ok (m', [[91; 85; 93]%N]) /\
  wp_token_to_id m' [35; 35; 117]%N <> None /\ wp_token_to_id m' [104; 117; 103]%N <> None.
Proof. eexists. split; [vm_compute; reflexivity|]. split; vm_compute; discriminate. Qed.

(** ** Unigram *)
Section unigram.
  Context {W : Type} (A : arith W) (is_nan : W -> bool) (missing : W -> nat -> W) (nan : W) (enough : W -> bool) (rescore : W -> W -> W).
  Context (seed : list (str * N) -> list (str * W)) (e_step : nat -> list (str * W) -> option (nat -> W)) (prune : nat -> list (str * W) -> option (list (str * W))).
  Context (arrange : list str -> list str).
  Notation train := (uni_train A is_nan missing nan enough rescore seed e_step prune arrange).

  Lemma uni_from_wf vocab unk fb m : uni_from A vocab unk fb = Ok m -> forall t id, aget str_eqb t (u_ids m) = Some id <-> exists w, last_entry vocab t id w.
  Proof.
    unfold uni_from. destruct (from_loop A 0 vocab [] tnode0 (a_inf A)) as [[ids trie] lo] eqn:EL. intros H.
    assert (F := from_loop_spec A vocab [] [] tnode0 (a_inf A) ids trie lo). cbn [app length] in F. destruct F as [F1 F2]; [|reflexivity|exact EL|].
    { intros t id. cbn. split; [discriminate|]. intros (w & X & _). destruct (N.to_nat id); discriminate. }
    destruct unk as [k|]; [destruct (is_nil vocab); [discriminate|]; destruct (N.leb _ k); [discriminate|]|]; injection H as <-; exact F1.
  Qed.

  (** Everything about the final vocabulary. *)
  Lemma uni_run fuel tr wc m sp : any_order arrange -> only_drops prune -> train fuel tr wc = Ok (m, sp) ->
    exists pieces rest limit,
      sp = ut_special tr /\ length (ut_special tr) + length (front_of tr) + limit = ut_vocab_size tr /\
      u_vocab m = map (fun t => (t, a_zero A)) (front_of tr ++ ut_special tr) ++ pieces /\ u_fallback m = false /\
      (exists all, sort_pieces A is_nan all = Ok pieces) /\
      Permutation (required_chars arrange tr wc ++ rest) (map fst pieces) /\ NoDup rest /\
      (forall t, In t rest -> ~ In t (required_chars arrange tr wc) /\ t <> training_unk /\ In t (map fst (seed wc))) /\
      (length (required_chars arrange tr wc) < limit -> length pieces <= limit) /\
      (exists fb, uni_from A (u_vocab m) (u_unk m) fb = Ok m) /\
      match ut_unk tr with None => u_unk m = None | Some u => exists i, u_unk m = Some i /\ nth_error (front_of tr ++ ut_special tr) (N.to_nat i) = Some u end.
  Proof.
    intros AO OD H. apply train_spec in H. destruct H as (ps & m1 & E1 & E2 & E3 & -> & LR). apply em_loop_incl in E1; [|exact OD].
    pose proof (uni_from_ok A _ _ _ _ E2) as (V1 & _ & F1 & _). apply finalize_spec in E3. destruct E3 as (pieces & fb & unk & EF & LS & E4 & E5 & EU). rewrite F1 in EF. subst fb.
    destruct (uni_from_ok A _ _ _ _ E5) as (V & U & FB & _).
    match type of E4 with sort_pieces _ _ (fill _ _ ?l ?v ?i ?p) = _ => destruct (fill_spec A is_nan l v i p) as (more & EM & DM & IM & LM & _) end.
    rewrite EM in E4. pose proof (sort_pieces_perm A is_nan _ _ E4) as PM. apply (Permutation_map fst) in PM. rewrite map_app, required_names in PM.
    exists pieces, (map fst more), (ut_vocab_size tr - length (ut_special tr) - length (front_of tr)). split; [reflexivity|]. split; [lia|]. split; [exact V|]. split; [exact FB|]. split; [eauto|].
    split; [exact PM|]. split; [exact DM|]. split; [|split; [|split; [exists false; rewrite V, U; exact E5|rewrite U; exact EU]]].
    - intros t Ht. destruct (IM t Ht) as [N1 N2]. rewrite V1 in N2. apply E1 in N2. cbn [map fst] in N2. cbn [In] in N1. split; [tauto|]. split; [intros ->; tauto|]. destruct N2 as [N2|N2]; [subst; tauto|exact N2].
    - intros L. assert (LQ : forall ex lo k, length (required_pieces missing ex lo k (required_chars arrange tr wc)) = length (required_chars arrange tr wc)).
      { intros ex lo k. pose proof (f_equal (@length _) (required_names missing ex lo (required_chars arrange tr wc) k)) as Q. rewrite map_length in Q. exact Q. }
      apply Permutation_length in PM. rewrite app_length, !map_length in PM. rewrite app_length, LQ in LM. specialize (LM L). lia.
  Qed.

  (** The unknown token if it is not a special one, the special tokens as given,
      then pieces: each once, among them every character, the others from the
      seed pieces.  The unknown token keeps its name. *)
  Theorem C59_unigram fuel tr wc m sp : any_order arrange -> only_drops prune -> train fuel tr wc = Ok (m, sp) ->
    exists front pieces,
      sp = ut_special tr /\ map fst (u_vocab m) = front ++ ut_special tr ++ pieces /\ unk_in_front (ut_unk tr) (ut_special tr) front /\ NoDup pieces /\
      (forall c, corpus_char wc (ut_initial tr) c -> In [c] pieces) /\
      (forall t, In t pieces -> (exists c, t = [c] /\ corpus_char wc (ut_initial tr) c) \/ (In t (map fst (seed wc)) /\ t <> training_unk)) /\
      match ut_unk tr with None => u_unk m = None | Some u => exists i, u_unk m = Some i /\ uni_id_to_token m i = Some u end.
  Proof.
    intros AO OD H. destruct (uni_run _ _ _ _ _ AO OD H) as (pieces & rest & limit & -> & _ & V & _ & _ & P & DR & IR & _ & _ & U).
    exists (front_of tr), (map fst pieces). split; [reflexivity|]. split; [rewrite V, map_app, map_map; cbn [fst]; rewrite map_id, <- app_assoc; reflexivity|]. split; [apply front_spec|].
    split; [|split; [|split]].
    - eapply Permutation_NoDup; [exact P|]. apply NoDup_app_intro; [apply required_nodup; exact AO|exact DR|]. intros t H1 H2. apply IR in H2. tauto.
    - intros c Hc. apply (Permutation_in _ P). apply in_or_app. left. apply required_in; eauto.
    - intros t Ht. apply (Permutation_in _ (Permutation_sym P)) in Ht. apply in_app_or in Ht. destruct Ht as [Ht|Ht]; [left; apply required_in in Ht; eauto|right; apply IR in Ht; tauto].
    - destruct (ut_unk tr) as [u|]; [|exact U]. destruct U as (i & U1 & U2). exists i. split; [exact U1|]. unfold uni_id_to_token, u_item. rewrite V.
      rewrite nth_error_app1 by (rewrite map_length; apply nth_error_Some; congruence). erewrite map_nth_error by exact U2. reflexivity.
  Qed.

  (** Pieces come with falling scores. *)
  Theorem C59_unigram_order fuel tr wc m sp : any_order arrange -> only_drops prune -> (forall a b, a_gtb A a b = true -> a_gtb A b a = false) -> train fuel tr wc = Ok (m, sp) ->
    exists before pieces, u_vocab m = before ++ pieces /\ Forall (fun e => snd e = a_zero A /\ (In (fst e) (ut_special tr) \/ ut_unk tr = Some (fst e))) before /\
      Sorted (fun a b => a_gtb A (snd b) (snd a) = false) pieces /\ forall c, corpus_char wc (ut_initial tr) c -> In [c] (map fst pieces).
  Proof.
    intros AO OD AS H. destruct (uni_run _ _ _ _ _ AO OD H) as (pieces & rest & limit & -> & _ & V & _ & (all & SP) & P & DR & IR & _ & _ & U).
    exists (map (fun t => (t, a_zero A)) (front_of tr ++ ut_special tr)), pieces. split; [exact V|]. split.
    - rewrite Forall_forall. intros e He. apply in_map_iff in He. destruct He as (t & <- & Ht). cbn [fst snd]. split; [reflexivity|]. apply in_app_or in Ht. destruct Ht as [Ht|Ht]; [|auto]. right.
      unfold front_of in Ht. destruct (ut_unk tr) as [u|]; [|destruct Ht]. destruct (position u 0 (ut_special tr)); [destruct Ht|]. destruct Ht as [<-|[]]. reflexivity.
    - split; [eapply sort_pieces_sorted; eassumption|]. intros c Hc. apply (Permutation_in _ P). apply in_or_app. left. apply required_in; eauto.
  Qed.

  (** The vocabulary is as large as asked for, if there is room for a piece that is not a character. *)
  Theorem C59_unigram_size fuel tr wc m sp front chars : any_order arrange -> only_drops prune -> train fuel tr wc = Ok (m, sp) ->
    unk_in_front (ut_unk tr) (ut_special tr) front -> NoDup chars -> (forall c, corpus_char wc (ut_initial tr) c <-> In c chars) ->
    length front + length (ut_special tr) + length chars < ut_vocab_size tr -> length (u_vocab m) <= ut_vocab_size tr.
  Proof.
    intros AO OD H FR DC HC L. destruct (uni_run _ _ _ _ _ AO OD H) as (pieces & rest & limit & -> & EL & V & _ & _ & P & DR & IR & LP & _ & U).
    assert (EF : front_of tr = front).
    { pose proof (front_spec tr) as FS. unfold unk_in_front in *. destruct (ut_unk tr) as [u|]; [|congruence]. destruct (in_dec (list_eq_dec N.eq_dec) u (ut_special tr)) as [I|I]; [rewrite (proj1 FS I), (proj1 FR I)|rewrite (proj2 FS I), (proj2 FR I)]; reflexivity. }
    assert (LR : length (required_chars arrange tr wc) <= length chars).
    { rewrite <- (map_length (fun c : char => [c]) chars). apply NoDup_incl_length; [apply required_nodup; exact AO|]. intros t Ht. apply required_in in Ht; [|exact AO]. destruct Ht as (c & -> & Hc). apply in_map_iff. exists c. split; [reflexivity|apply HC; exact Hc]. }
    rewrite V, app_length, map_length, app_length. rewrite EF in *. lia.
  Qed.

  (** Ids are positions when no token comes twice. *)
  Theorem C59_unigram_ids fuel tr wc m sp : any_order arrange -> only_drops prune -> train fuel tr wc = Ok (m, sp) ->
    NoDup (map fst (u_vocab m)) -> numbered (uni_token_to_id m) (uni_id_to_token m) (map fst (u_vocab m)).
  Proof.
    intros AO OD H D. destruct (uni_run _ _ _ _ _ AO OD H) as (_ & _ & _ & _ & _ & _ & _ & _ & _ & _ & _ & _ & (fb & UF) & _).
    split; [exact D|]. assert (N2 : forall i, nth_error (map fst (u_vocab m)) i = option_map fst (nth_error (u_vocab m) i)) by (intros i; apply nth_error_map). split.
    - intros t i. unfold uni_token_to_id. rewrite (uni_from_wf _ _ _ _ UF), N2. split.
      + intros (w & X & _). rewrite X. reflexivity.
      + intros X. destruct (nth_error (u_vocab m) (N.to_nat i)) as [[t' w]|] eqn:E; [|discriminate]. injection X as ->. exists w. split; [exact E|]. intros j u L Y.
        rewrite NoDup_nth_error in D. assert (Z : N.to_nat i = j); [|lia]. apply D; [rewrite map_length; apply nth_error_Some; congruence|]. rewrite !N2, E, Y. reflexivity.
    - intros i. unfold uni_id_to_token, u_item. rewrite N2. reflexivity.
  Qed.

  (** ** C64: a trained Unigram spells the words of the corpus. *)

  (** No piece of the segmentation is unknown. *)
  Lemma fused_texts m seg pieces : Forall (fun it => ~ unknown_item m it) seg -> fused m seg pieces -> pieces = @texts W seg.
  Proof.
    intros F H. induction H as [|it seg pieces N1 H IH|us seg pieces NE U N1 H IH]; [reflexivity|inversion F; subst; cbn [texts map]; f_equal; auto|].
    exfalso. destruct us as [|it us]; [congruence|]. inversion F; subst. inversion U; subst. contradiction.
  Qed.

  Theorem C64_unigram ok fuel tr wc m sp w n : any_order arrange -> only_drops prune -> train fuel tr wc = Ok (m, sp) ->
    scores_ok A ok m -> Forall (fun e => text_ok (fst e)) (u_vocab m) -> In (w, n) wc -> text_ok w ->
    (forall u, ut_unk tr = Some u -> forall a b, w <> a ++ u ++ b) ->
    exists toks, uni_tokenize A m None w = Ok toks /\ concat (map t_value toks) = w /\
      Forall (fun t => uni_token_to_id m (t_value t) = Some (t_id t) /\ u_unk m <> Some (t_id t)) toks.
  Proof.
    intros AO OD H SO TX HW TW NU. pose proof (C59_unigram _ _ _ _ _ AO OD H) as (front & pieces & _ & EV & _ & _ & CH & _ & UK).
    destruct (uni_run _ _ _ _ _ AO OD H) as (_ & _ & _ & _ & _ & _ & _ & _ & _ & _ & _ & _ & (fb & UF) & _).
    assert (MD : made A m).
    { exists (u_vocab m), (u_unk m), fb, m, (u_min m). split; [exact UF|]. split; [exact TX|]. destruct m; reflexivity. }
    assert (KC : forall c, In c w -> In [c] (map fst (u_vocab m))).
    { intros c Hc. rewrite EV. apply in_or_app. right. apply in_or_app. right. apply CH. right. eauto. }
    destruct (C43_succeeds A ok m w MD SO TW (or_intror KC)) as (ps & EP).
    destruct (C43_pieces A ok m w None ps MD SO TW ltac:(intros c X; discriminate) EP) as ((seg & [SI SC] & FU) & CC & _).
    assert (UN : Forall (fun it => ~ unknown_item m it) seg).
    { rewrite Forall_forall. intros [[x id] s] Hit U. unfold unknown_item in U. cbn [fst snd] in U. rewrite Forall_forall in SI. specialize (SI _ Hit). cbn in SI.
      assert (SUB : exists a b, w = a ++ x ++ b).
      { rewrite <- SC. apply in_split in Hit. destruct Hit as (l1 & l2 & ->). exists (concat (texts l1)), (concat (texts l2)). unfold texts. rewrite map_app, concat_app. reflexivity. }
      destruct SUB as (a & b & EW). destruct SI as [[NE [LE _]]|(c & -> & NI & _)]; [|apply NI, KC; rewrite EW; apply in_or_app; right; left; reflexivity].
      destruct (ut_unk tr) as [u|]; [|congruence]. destruct UK as (i & U1 & U2). rewrite U in U1. injection U1 as <-. unfold uni_id_to_token, u_item in U2. rewrite LE in U2. injection U2 as ->. eapply (NU u eq_refl); exact EW. }
    apply (fused_texts m seg ps UN) in FU. subst ps.
    assert (KP : Forall (fun it => exists wt, last_entry (u_vocab m) (fst (fst it)) (snd (fst it)) wt) seg).
    { rewrite Forall_forall. intros [[x id] s] Hit. rewrite Forall_forall in SI. pose proof (SI _ Hit) as Q. cbn in Q |- *. destruct Q as [[_ Q]|(c & -> & NI & _)]; [eauto|]. exfalso. apply NI, KC. rewrite <- SC. apply in_concat. exists [c]. split; [|left; reflexivity].
      unfold texts. apply in_map_iff. exists ([c], id, s). auto. }
    assert (G : forall (sg : list (str * N * W)) from acc, Forall (fun it => exists wt, last_entry (u_vocab m) (fst (fst it)) (snd (fst it)) wt) sg ->
       exists toks, uni_tokens m from (texts sg) acc = Ok (acc ++ toks) /\ map t_value toks = texts sg /\ map t_id toks = map (fun it => snd (fst it)) sg).
    { induction sg as [|it sg IH]; intros from acc F; [exists []; rewrite app_nil_r; auto|]. inversion F as [|? ? K F']; subst. apply (uni_from_wf _ _ _ _ UF) in K.
      cbn [texts map uni_tokens]. rewrite K. destruct (IH (from + blen (fst (fst it))) (acc ++ [mkTok (snd (fst it)) (fst (fst it)) (from, from + blen (fst (fst it)))]) F') as (toks & E & V1 & V2).
      exists (mkTok (snd (fst it)) (fst (fst it)) (from, from + blen (fst (fst it))) :: toks). unfold texts in E. rewrite E, <- app_assoc. cbn [map t_value t_id app]. rewrite V1, V2. auto. }
    destruct (G seg 0 [] KP) as (toks & E & V1 & V2). exists toks. unfold uni_tokenize. rewrite EP. cbn [bind]. split; [exact E|]. split; [rewrite V1; exact SC|].
    rewrite Forall_forall. intros t Ht. apply In_nth_error in Ht. destruct Ht as (k & Ht).
    pose proof (map_nth_error t_value k toks Ht) as Q1. pose proof (map_nth_error t_id k toks Ht) as Q2. rewrite V1 in Q1. rewrite V2 in Q2. unfold texts in Q1. rewrite nth_error_map in Q1, Q2.
    destruct (nth_error seg k) as [it|] eqn:Q3; [|discriminate]. injection Q1 as Q1. injection Q2 as Q2. apply nth_error_In in Q3. rewrite Forall_forall in KP, UN. rewrite <- Q1, <- Q2. split; [|apply (UN _ Q3)].
    apply (uni_from_wf _ _ _ _ UF). apply KP. exact Q3.
  Qed.
End unigram.

(** A run over integers: no rounds of the EM algorithm, nothing pruned. *)
Definition ex_seed (wc : list (str * N)) : list (str * Z) := [([97]%N, (-1)%Z); ([98]%N, (-2)%Z); ([97; 98]%N, (-3)%Z)].
Definition ex_uni_train (tr : uni_trainer) (wc : list (str * N)) : res ut_error (unigram Z * list str) :=
  uni_train z_arith (fun _ => false) (fun lo k => (lo + Z.of_nat k)%Z) 0%Z (fun _ => true) (fun sum c => (c - sum)%Z) ex_seed (fun _ _ => Some (fun i => (10 - Z.of_nat i)%Z)) (fun _ ps => Some ps) (fun l => l) 5 tr wc.
Lemma ex_uni_args : any_order (fun l : list str => l) /\ only_drops (fun (_ : nat) (ps : list (str * Z)) => Some ps).
Proof. split; [intros l; apply Permutation_refl|]. intros k ps ps' H. injection H as <-. apply incl_refl. Qed.

Definition ex_uni_trainer (size : nat) : uni_trainer := mkUt size 1 [[60; 115; 62]%N] [99%N] (Some [63%N]).
Example C59_unigram_example : exists m, ex_uni_train (ex_uni_trainer 6) [([97; 98; 97], 2)]%N = Ok (m, [[60; 115; 62]%N]) /\
  map fst (u_vocab m) = [[63]; [60; 115; 62]; [97]; [98]; [97; 98]; [99]]%N /\ u_unk m = Some 0%N /\ NoDup (map fst (u_vocab m)).
Proof. eexists. split; [vm_compute; reflexivity|]. split; [reflexivity|]. split; [reflexivity|]. repeat constructor; cbn; intuition discriminate. Qed.

(** The size is exceeded when characters fill the vocabulary: 4 tokens are asked
    for, two of them special, and 5 are there. *)
Theorem C59_unigram_size_refuted : exists tr wc m sp, ut_vocab_size tr = 4 /\ ex_uni_train tr wc = Ok (m, sp) /\ length (u_vocab m) = 5.
Proof. exists (mkUt 4 0 [[60]; [62]]%N [] None), [([97; 98], 2)]%N. eexists. eexists. split; [reflexivity|]. split; [vm_compute; reflexivity|vm_compute; reflexivity]. Qed.

(** More special tokens than the size: a panic instead of an error. *)
Theorem C59_unigram_special_refuted : exists tr wc, ut_vocab_size tr = 3 /\ length (ut_special tr) = 4 /\ ex_uni_train tr wc = Panic.
Proof. exists (mkUt 3 0 [[60]; [62]; [61]; [62; 62]]%N [] None), [([97; 98], 2)]%N. vm_compute. auto. Qed.

(** ** C64 *)

Lemma enumerate_has l : forall i m w, In w l \/ aget str_eqb w m <> None -> aget str_eqb w (enumerate_into i l m) <> None.
Proof.
  induction l as [|x l IH]; intros i m w H; cbn [enumerate_into]; [destruct H as [[]|H]; exact H|]. apply IH. destruct H as [[->|H]|H]; [|left; exact H|].
  - right. rewrite (aget_aset str_eqb str_eqb_eq), str_eqb_refl. discriminate.
  - right. rewrite (aget_aset str_eqb str_eqb_eq). destruct (str_eqb w x); [discriminate|exact H].
Qed.

(** WordLevel: a word that is frequent enough is a token, if all those words fit. *)
Theorem C64_wordlevel tr wc m w n :
  In (w, n) wc -> (lt_min_frequency tr <= n)%N ->
  length (lt_special tr) + length (filter (fun wn => N.leb (lt_min_frequency tr) (snd wn)) wc) <= lt_vocab_size tr ->
  exists id, wl_tokenize (fst (wl_train tr wc m)) w = Ok [mkTok id w (0, blen w)].
Proof.
  intros HW HN L. set (P := fun wn : str * N => N.leb (lt_min_frequency tr) (snd wn)) in *.
  assert (X : wl_token_to_id (fst (wl_train tr wc m)) w <> None).
  { unfold wl_token_to_id. cbn [wl_train fst l_vocab]. apply enumerate_has. left. rewrite firstn_all2.
    - apply in_or_app. right. apply in_map_iff. exists (w, n). split; [reflexivity|]. apply filter_In. split; [apply (Permutation_in _ (wl_sort_perm wc)); exact HW|]. apply N.leb_le. exact HN.
    - rewrite app_length, map_length. pose proof (Permutation_length (filter_perm P _ _ (wl_sort_perm wc))) as PL. fold P. lia. }
  destruct (wl_token_to_id (fst (wl_train tr wc m)) w) as [id|] eqn:E; [|congruence]. exists id. apply C41_total. exact E.
Qed.
Example C64_wordlevel_example : wl_tokenize (fst (wl_train (mkWlt 2 4 [[63%N]]) ex_wl_words (mkWL [] [63%N]))) [98%N] = Ok [mkTok 3%N [98%N] (0, 1)].
Proof. reflexivity. Qed.

Lemma forall2_in_left {X Y} (R : X -> Y -> Prop) l l' : Forall2 R l l' -> forall a, In a l -> exists b, In b l' /\ R a b.
Proof. induction 1 as [|a b l l' H _ IH]; intros x Hx; [destruct Hx|]. destruct Hx as [<-|Hx]; [exists b; cbn; auto|]. destruct (IH x Hx) as (y & H1 & H2). exists y. cbn. auto. Qed.

(** What BPE training knows: every character of a word, in the form it has there. *)
Lemma trained_forms by_count pop tr wc m m' sp : count_sort by_count -> train_heap pop -> small_corpus wc -> tr_limit tr = None -> do_train by_count pop tr wc m = Ok (m', sp) ->
  NoDup (map fst (b_vocab m')) /\ NoDup (map snd (b_vocab m')) /\ b_prefix m' = tr_prefix tr /\ b_suffix m' = tr_suffix tr /\
  forall w n p c q, In (w, n) wc -> w = p ++ c :: q -> In (affixed (tr_prefix tr) (tr_suffix tr) (is_nil p) (is_nil q) c) (map fst (b_vocab m')).
Proof.
  intros HC HP SC NL H. destruct (run_result _ _ _ _ _ _ _ HC HP SC H) as (al & st & wtu & st' & P & E & V & ->).
  destruct (BpeTrainProofs8.loop_tokens pop tr wc al st wtu _ st' HP P E) as (_ & _ & rest & ER & _). cbn [BpeTrainProofs8.result b_vocab b_prefix b_suffix]. rewrite indexed_keys.
  split; [apply V|]. split; [apply BpeTrainProofs8.indexed_ids_nodup|]. split; [reflexivity|]. split; [reflexivity|]. intros w n p c q HW EW. rewrite ER. apply in_or_app. left.
  destruct (forall2_in_left _ _ _ (BpeTrainProofs4.p_spelled _ _ _ _ _ P) (w, n) HW) as (ws & _ & SP). cbn [fst] in SP.
  apply (spelled_forms tr _ true w ws SP); [|exact EW]. intros d Hd. pose proof (BpeTrainProofs4.p_first _ _ _ _ _ P) as (extra & -> & _). apply (proj2 (distinct_in _ _)). apply in_or_app. right. apply in_or_app. left.
  apply (in_map (fun c => [c])). pose proof (BpeTrainProofs4.p_alphabet _ _ _ _ _ P) as KA. unfold kept_alphabet in KA. cbv zeta in KA. rewrite NL in KA. apply KA. right. eauto.
Qed.

(** WordPiece, without limit to the alphabet, with a prefix and no suffix: every
    word that is not too long is cut into known pieces. *)
Theorem C64_wordpiece by_count pop tr wc m m' sp w n p :
  count_sort by_count -> train_heap pop -> small_corpus wc -> tr_limit tr = None -> tr_prefix tr = Some p -> tr_suffix tr = None ->
  wp_train by_count pop tr wc m = Ok (m', sp) -> In (w, n) wc -> length w <= w_max m ->
  exists xs toks, wp_tokenize m' w = Ok toks /\ concat xs = w /\ Forall (fun x => x <> []) xs /\ tokens_of (w_vocab m') p [] xs toks.
Proof.
  intros HC HP SC NL EP ES H HW LW. unfold wp_train in H. apply bind_ok in H. destruct H as ([b sp'] & E & H). injection H as <- <-.
  destruct (trained_forms _ _ _ _ _ _ _ HC HP SC NL E) as (N1 & N2 & PB & SB & FM). cbn [w_vocab w_prefix from_bpe].
  rewrite PB, EP. destruct (greedy_exists (b_vocab b) p (length w) [] w) as (xs & G); [lia| |].
  - intros q c r EW. cbn [app]. specialize (FM w n q c r HW EW). rewrite EP, ES in FM. unfold affixed in FM. assert (X : entry p q [c] = (if is_nil q then [] else p) ++ [c] ++ (if is_nil r then [] else [])) by (destruct q, r; cbn [is_nil entry app]; rewrite ?app_nil_r; reflexivity).
    rewrite <- X in FM. apply in_map_iff in FM. destruct FM as ([t id] & EQ & FM). cbn [fst] in EQ. subst t. exists id. apply (In_aget _ str_eqb_eq); assumption.
  - match goal with |- exists xs toks, wp_tokenize ?mm w = _ /\ _ => destruct (C40_pieces mm w xs LW G) as (toks & ET & TO) end.
    exists xs, toks. split; [exact ET|]. destruct (C40_cover _ _ _ _ _ G) as (G1 & G2). auto.
Qed.
Example C64_wordpiece_example : exists m' toks,
  wp_train sort_count pop_first ex_wp_trainer ex_words (mkWP [] [91; 85; 93]%N [35; 35]%N 100) = Ok (m', [[91; 85; 93]%N]) /\
  wp_tokenize m' (fst (hd ([], 0%N) ex_words)) = Ok toks /\ toks <> [].
Proof. eexists. eexists. split; [vm_compute; reflexivity|]. split; [vm_compute; reflexivity|discriminate]. Qed.

(** Not so without a prefix: the model keeps the default one, which no token has.
    Nor with a suffix: no token without it stands for the last character. *)
Theorem C64_wordpiece_prefix_refuted : exists tr m', tr_prefix tr = None /\ tr_suffix tr = None /\ tr_limit tr = None /\
  wp_train sort_count pop_first tr [([97; 98], 5); ([98; 97], 5)]%N (mkWP [] [63%N] [35; 35]%N 100) = Ok (m', [[63%N]]) /\
  wp_tokenize m' [97; 98]%N = Ok [mkTok 0%N [63%N] (0, 2)].
Proof. exists (mkTrainer 2 3 [[63%N]] None [] None None None). eexists. split; [reflexivity|]. split; [reflexivity|]. split; [reflexivity|]. split; [vm_compute; reflexivity|vm_compute; reflexivity]. Qed.
Theorem C64_wordpiece_suffix_refuted : exists tr m', tr_prefix tr = Some [35; 35]%N /\ tr_suffix tr = Some [36%N] /\ tr_limit tr = None /\
  wp_train sort_count pop_first tr [([97; 98], 5); ([98; 97], 5)]%N (mkWP [] [63%N] [35; 35]%N 100) = Ok (m', [[63%N]]) /\
  wp_tokenize m' [97; 98]%N = Ok [mkTok 0%N [63%N] (0, 2)].
Proof. exists (mkTrainer 2 20 [[63%N]] None [] (Some [35; 35]%N) (Some [36%N]) None). eexists. split; [reflexivity|]. split; [reflexivity|]. split; [reflexivity|]. split; [vm_compute; reflexivity|vm_compute; reflexivity]. Qed.

(** BPE, without limit to the alphabet: every word is cut into tokens that tile
    it, each with the text at its place, and no character is unknown. *)
Theorem C64_bpe by_count pop hpop tr wc m m' sp w n draws :
  count_sort by_count -> train_heap pop -> heap_ok hpop -> small_corpus wc -> tr_limit tr = None -> b_dropout m <> DOutside ->
  do_train by_count pop tr wc m = Ok (m', sp) -> In (w, n) wc ->
  exists toks, bpe_tokenize hpop m' draws w = Ok toks /\ ranges_from 0 (map t_offsets toks) (blen w) /\
    forall t, In t toks -> In (t_value t, t_id t) (b_vocab m') /\ exists pre x post, w = pre ++ x ++ post /\ t_offsets t = (blen pre, blen pre + blen x) /\
      (t_value t = in_place m' pre x post \/ (b_ignore_merges m' = true /\ x = w /\ t_value t = w)).
Proof.
  intros HC HP HH SC NL DO H HW. destruct (trained_forms _ _ _ _ _ _ _ HC HP SC NL H) as (N1 & N2 & PB & SB & FM).
  destruct (C37_rebuild by_count pop tr wc m HC HP SC DO) as (m2 & tk & ms & merges & E2 & _ & _ & _ & _ & _ & BB). rewrite H in E2. injection E2 as <- _.
  assert (BT : built (b_vocab m') merges (b_prefix m') m') by (split; [exact N1|]; do 6 eexists; exact BB).
  assert (AK : forall p c q, w = p ++ c :: q -> known_char m' (is_nil p) (is_nil q) c).
  { intros p c q EW. specialize (FM w n p c q HW EW). unfold known_char, b_id.
    assert (X : decorate m' (is_nil p) (is_nil q) [c] = affixed (tr_prefix tr) (tr_suffix tr) (is_nil p) (is_nil q) c).
    { unfold decorate, affixed. rewrite PB, SB. destruct (is_nil p), (is_nil q), (tr_prefix tr), (tr_suffix tr); cbn [app]; rewrite ?app_nil_r, <- ?app_assoc; reflexivity. }
    rewrite X. intros Y. apply (aget_none _ str_eqb_eq) in Y. contradiction. }
  assert (OK : exists toks, bpe_tokenize hpop m' draws w = Ok toks).
  { assert (KW : forall dr, exists toks, (let! x := merge_word hpop m' dr w in word_to_tokens m' x) = Ok toks).
    { intros dr. pose proof (build_facts _ _ _ _ _ _ _ _ _ _ BB) as BF. destruct (known_word hpop _ _ _ m' dr w HH BF AK) as (toks & _ & _ & Q & _). eauto. }
    unfold bpe_tokenize, tokenize_plain. destruct (is_nil w); [eauto|]. destruct (b_dropout m'); [| |apply KW|apply KW]; (destruct (if b_ignore_merges m' then b_id m' w else None); [eauto|apply KW]). }
  destruct OK as (toks & OK). exists toks. split; [exact OK|]. split.
  - destruct (C33_cover hpop _ _ _ m' draws w toks HH BT OK) as (e & RG & CV). rewrite CV in RG; [exact RG|]. intros p c q EW. left. apply AK. exact EW.
  - intros t Ht. split; [eapply C33_values; eassumption|]. eapply C33_known_word; eassumption.
Qed.
Example C64_bpe_example : exists m' toks, do_train sort_count pop_first ex_trainer ex_words ex_base = Ok (m', tr_special ex_trainer) /\ tr_limit ex_trainer = None /\
  bpe_tokenize pop_min m' no_draw (fst (hd ([], 0%N) ex_words)) = Ok toks /\ toks <> [].
Proof. eexists. eexists. split; [vm_compute; reflexivity|]. split; [reflexivity|]. split; [vm_compute; reflexivity|discriminate]. Qed.

Example C64_unigram_example : exists m sp toks, ex_uni_train (ex_uni_trainer 6) [([97; 98; 97], 2)]%N = Ok (m, sp) /\ scores_ok z_arith (fun _ => True) m /\ Forall (fun e => text_ok (fst e)) (u_vocab m) /\
  uni_tokenize z_arith m None [97; 98; 97]%N = Ok toks /\ map t_value toks = [[97; 98]; [97]]%N.
Proof.
  eexists. eexists. eexists. split; [vm_compute; reflexivity|]. split; [split; [apply z_laws|auto]|]. split; [repeat constructor|]. split; [vm_compute; reflexivity|reflexivity].
Qed.
