(** Proofs about the trainers of WordPiece and Unigram. *)
From Verif Require Import Base StrBytes ListFacts AMap Utf8 EncodingModel BpeWordModel BpeModel BpeProofs BpeTrainModel BpeTrainSpec BpeTrainProofs TrieModel UnigramModel UnigramSpec UnigramProofs WordPieceModel WordPieceSpec TrainersModel TrainersSpec.

(** ** Greedy segmentations *)
Section greedy.
  Context (vocab : list (str * N)) (prefix : str).

  Lemma known_dec t : known vocab t \/ ~ known vocab t.
  Proof. unfold known. destruct (aget str_eqb t vocab) as [i|]; [left; eauto|]. right. intros (i & H). discriminate. Qed.

  Lemma longest_exists pre c s : known vocab (entry prefix pre [c]) -> exists x rest, c :: s = x ++ rest /\ longest vocab prefix pre (c :: s) x.
  Proof.
    intros K.
    assert (G : forall n, n <= length (c :: s) -> (forall y z, c :: s = y ++ z -> n < length y -> ~ known vocab (entry prefix pre y)) ->
                exists x rest, c :: s = x ++ rest /\ longest vocab prefix pre (c :: s) x).
    { induction n as [|n IH]; intros L H.
      - exfalso. apply (H [c] s eq_refl); [cbn; lia|exact K].
      - destruct (known_dec (entry prefix pre (firstn (S n) (c :: s)))) as [Y|Y].
        + exists (firstn (S n) (c :: s)), (skipn (S n) (c :: s)). split; [symmetry; apply firstn_skipn|]. split; [discriminate|]. split; [exists (skipn (S n) (c :: s)); symmetry; apply firstn_skipn|]. split; [exact Y|].
          intros y z E NE KY. rewrite firstn_length. destruct (Nat.le_gt_cases (length y) (S n)) as [X|X]; [lia|]. exfalso. exact (H y z E X KY).
        + apply IH; [lia|]. intros y z E LY KY. destruct (Nat.eq_dec (length y) (S n)) as [X|X]; [|apply (H y z E); [lia|exact KY]]. apply Y. rewrite E, <- X, firstn_app, Nat.sub_diag, firstn_O, app_nil_r, firstn_all. exact KY. }
    apply (G (length (c :: s))); [lia|]. intros y z E L. exfalso. rewrite E, app_length in L. lia.
  Qed.

  Lemma greedy_exists : forall n pre s, length s <= n -> (forall p c q, s = p ++ c :: q -> known vocab (entry prefix (pre ++ p) [c])) -> exists xs, greedy vocab prefix pre s xs.
  Proof.
    induction n as [|n IH]; intros pre s L H; (destruct s as [|c s]; [exists []; constructor|]); [cbn in L; lia|].
    destruct (longest_exists pre c s) as (x & rest & E & LG); [specialize (H [] c s eq_refl); rewrite app_nil_r in H; exact H|].
    destruct (IH (pre ++ x) rest) as (xs & G).
    - destruct LG as (NE & _). apply (f_equal (@length _)) in E. rewrite app_length in E. cbn [length] in *. destruct x; [congruence|]. cbn [length] in E. lia.
    - intros p d q ->. rewrite <- app_assoc. apply (H (x ++ p) d q). rewrite E, <- app_assoc. reflexivity.
    - exists (x :: xs). rewrite E in LG |- *. constructor; assumption.
  Qed.
End greedy.

Lemma spelled_forms tr toks first s w : spelled tr toks first s w -> (forall c, In c s -> In [c] toks) ->
  forall p c q, s = p ++ c :: q -> In (affixed (tr_prefix tr) (tr_suffix tr) (first && is_nil p) (is_nil q) c) toks.
Proof.
  induction 1 as [first|first c s i w K E Sp IH|first c s w K Sp IH]; intros A p d q X.
  - destruct p; discriminate.
  - destruct p as [|c' p]; cbn [app] in X; injection X as <- ->.
    + cbn [is_nil]. rewrite andb_true_r. eapply nth_error_In. exact E.
    + cbn [is_nil]. rewrite andb_false_r. apply (IH (fun e H => A e (or_intror H)) p d q eq_refl).
  - exfalso. apply K, A. left. reflexivity.
Qed.

(** ** Unigram *)
Section unigram.
  Context {W : Type} (A : arith W) (is_nan : W -> bool) (missing : W -> nat -> W) (nan : W) (enough : W -> bool) (rescore : W -> W -> W).
  Context (seed : list (str * N) -> list (str * W)) (e_step : nat -> list (str * W) -> option (nat -> W)) (prune : nat -> list (str * W) -> option (list (str * W))).
  Context (arrange : list str -> list str).

  Lemma required_names existing lo req : forall k, map fst (required_pieces missing existing lo k req) = req.
  Proof. induction req as [|c req IH]; intros k; cbn [required_pieces]; [reflexivity|]. destruct (aget str_eqb c existing); cbn [map fst]; rewrite IH; reflexivity. Qed.

  Lemma fill_spec limit vocab : forall inserted pieces, exists more,
    fill A is_nan limit vocab inserted pieces = pieces ++ more /\ NoDup (map fst more) /\
    (forall t, In t (map fst more) -> ~ In t inserted /\ In t (map fst vocab)) /\
    (length pieces < limit -> length (pieces ++ more) <= limit) /\
    (length (pieces ++ more) = limit \/ forall t, In t (map fst vocab) -> In t inserted \/ In t (map fst more)).
  Proof.
    clear missing nan enough rescore seed e_step prune arrange.
    induction vocab as [|[t s] vocab IH]; intros inserted pieces; cbn [fill].
    - exists []. rewrite app_nil_r. split; [reflexivity|]. split; [constructor|]. split; [intros t []|]. split; [lia|]. right. intros t [].
    - destruct (existsb (str_eqb t) inserted) eqn:EX.
      + assert (I : In t inserted) by (apply existsb_exists in EX; destruct EX as (u & I & EQ); apply str_eqb_eq in EQ; congruence).
        destruct (IH inserted pieces) as (more & E & D & F & L & C). exists more. split; [exact E|]. split; [exact D|]. split; [intros u Hu; specialize (F u Hu); cbn [map In]; tauto|]. split; [exact L|].
        destruct C as [C|C]; [left; exact C|]. right. intros u [<-|Hu]; [left; exact I|]. apply C. exact Hu.
      + assert (NI : ~ In t inserted).
        { intros I. assert (X : existsb (str_eqb t) inserted = true) by (apply existsb_exists; exists t; split; [exact I|apply str_eqb_refl]). congruence. }
        destruct (Nat.eqb_spec (length (pieces ++ [(t, if is_nan s then a_zero A else s)])) limit) as [EL|NL].
        * eexists [_]. split; [reflexivity|]. split; [cbn; constructor; [intros []|constructor]|]. split; [intros u [<-|[]]; cbn [fst map In]; auto|]. split; [lia|left; exact EL].
        * destruct (IH (t :: inserted) (pieces ++ [(t, if is_nan s then a_zero A else s)])) as (more & E & D & F & L & C).
          exists ((t, if is_nan s then a_zero A else s) :: more). rewrite E. rewrite <- app_assoc in *. cbn [app] in *. split; [reflexivity|]. split; [|split; [|split]].
          -- cbn [map fst]. constructor; [|exact D]. intros H. apply F in H. destruct H as [H _]. apply H. left. reflexivity.
          -- cbn [map fst]. intros u [<-|Hu]; [cbn [In]; auto|]. specialize (F u Hu). cbn [In] in *. tauto.
          -- intros H. apply L. rewrite app_length in *. cbn [length] in *. lia.
          -- destruct C as [C|C]; [left; exact C|]. right. cbn [map fst]. intros u [<-|Hu]; [right; left; reflexivity|]. destruct (C u Hu) as [[<-|X]|X]; cbn [In]; auto.
  Qed.

  Lemma insert_piece_perm x l : Permutation (x :: l) (insert_piece A x l).
  Proof. induction l as [|y l IH]; cbn [insert_piece]; [apply Permutation_refl|]. destruct (a_gtb A (snd y) (snd x)); [|apply Permutation_refl]. etransitivity; [apply perm_swap|]. constructor. exact IH. Qed.
  Lemma sort_pieces_perm l l' : sort_pieces A is_nan l = Ok l' -> Permutation l l'.
  Proof.
    unfold sort_pieces. destruct (_ && _)%bool; [discriminate|]. intros H. injection H as <-. induction l as [|x l IH]; cbn [fold_right]; [constructor|]. etransitivity; [constructor; exact IH|]. apply insert_piece_perm.
  Qed.
  Lemma sort_pieces_sorted l l' : (forall a b, a_gtb A a b = true -> a_gtb A b a = false) -> sort_pieces A is_nan l = Ok l' -> Sorted (fun a b => a_gtb A (snd b) (snd a) = false) l'.
  Proof.
    intros AS. unfold sort_pieces. destruct (_ && _)%bool; [discriminate|]. intros H. injection H as <-. induction l as [|x l IH]; cbn [fold_right]; [constructor|]. revert IH. generalize (fold_right (insert_piece A) [] l). clear l. intros l.
    induction l as [|y l IH]; intros H; cbn [insert_piece]; [repeat constructor|]. apply Sorted_inv in H. destruct H as [H1 H2]. destruct (a_gtb A (snd y) (snd x)) eqn:E.
    - constructor; [apply IH; exact H1|]. destruct l as [|z l]; cbn [insert_piece]; [constructor; apply AS; exact E|]. inversion H2; subst. destruct (a_gtb A (snd z) (snd x)); constructor; [assumption|apply AS; exact E].
    - constructor; [constructor; assumption|]. constructor. exact E.
  Qed.

  Lemma position_spec t l : forall i, match position t i l with Some j => i <= j /\ nth_error l (j - i) = Some t | None => ~ In t l end.
  Proof.
    clear A is_nan missing nan enough rescore seed e_step prune arrange W.
    induction l as [|x l IH]; intros i; cbn [position]; [intros []|]. destruct (str_eqb x t) eqn:E.
    - apply str_eqb_eq in E. subst. rewrite Nat.sub_diag. auto.
    - specialize (IH (i + 1)). destruct (position t (i + 1) l) as [j|].
      + destruct IH as [L H]. split; [lia|]. replace (j - i) with (S (j - (i + 1))) by lia. exact H.
      + intros [->|H]; [rewrite str_eqb_refl in E; discriminate|auto].
  Qed.

  Lemma uni_from_ok vocab unk fb m : uni_from A vocab unk fb = Ok m -> u_vocab m = vocab /\ u_unk m = unk /\ u_fallback m = fb /\ u_fuse m = true.
  Proof.
    unfold uni_from. destruct (from_loop A 0 vocab [] tnode0 (a_inf A)) as [[ids trie] lo]. destruct unk as [k|]; [destruct (is_nil vocab); [discriminate|]; destruct (N.leb _ k); [discriminate|]|]; intros H; injection H as <-; auto.
  Qed.
  Lemma lift_ok {X} (r : res uni_error X) x : lift_uni r = Ok x -> r = Ok x.
  Proof. destruct r; cbn; congruence. Qed.

  Definition front_of (tr : uni_trainer) : list str :=
    match ut_unk tr with Some u => match position u 0 (ut_special tr) with Some _ => [] | None => [u] end | None => [] end.

  Lemma front_spec tr : unk_in_front (ut_unk tr) (ut_special tr) (front_of tr).
  Proof.
    clear A is_nan missing nan enough rescore seed e_step prune arrange W.
    unfold unk_in_front, front_of. destruct (ut_unk tr) as [u|]; [|reflexivity]. pose proof (position_spec u (ut_special tr) 0) as P. destruct (position u 0 (ut_special tr)) as [j|].
    - split; [reflexivity|]. intros H. exfalso. apply H. eapply nth_error_In. apply P.
    - split; [contradiction|reflexivity].
  Qed.

  Lemma finalize_spec tr m req final : finalize A is_nan missing tr m req = Ok final ->
    exists pieces fb unk, u_fallback m = fb /\ length (ut_special tr) + length (front_of tr) <= ut_vocab_size tr /\
      let limit := ut_vocab_size tr - length (ut_special tr) - length (front_of tr) in
      sort_pieces A is_nan (fill A is_nan limit (u_vocab m) (training_unk :: req) (required_pieces missing (fold_left (fun acc p => aset str_eqb (fst p) (snd p) acc) (u_vocab m) []) (u_min m) 0 req)) = Ok pieces /\
      uni_from A (map (fun t => (t, a_zero A)) (front_of tr ++ ut_special tr) ++ pieces) unk fb = Ok final /\
      match ut_unk tr with None => unk = None | Some u => exists i, unk = Some i /\ nth_error (front_of tr ++ ut_special tr) (N.to_nat i) = Some u end.
  Proof.
    clear nan enough rescore seed e_step prune arrange.
    unfold finalize, front_of. intros H.
    assert (POS : forall u, match position u 0 (ut_special tr) with Some j => nth_error (ut_special tr) j = Some u | None => True end).
    { intros u. pose proof (position_spec u (ut_special tr) 0) as P. destruct (position u 0 (ut_special tr)) as [j|]; [|exact Logic.I]. rewrite Nat.sub_0_r in P. apply P. }
    destruct (ut_unk tr) as [u|].
    - specialize (POS u). destruct (position u 0 (ut_special tr)) as [j|].
      + cbn [length] in *. destruct (Nat.ltb_spec (ut_vocab_size tr) (length (ut_special tr) + 0)) as [L|L]; [discriminate|]. apply bind_ok in H. destruct H as (pieces & H1 & H2). apply lift_ok in H2.
        exists pieces, (u_fallback m), (Some (N.of_nat j)). split; [reflexivity|]. split; [lia|]. split; [exact H1|]. split; [exact H2|]. exists (N.of_nat j). rewrite Nat2N.id. auto.
      + cbn [length] in *. destruct (Nat.ltb_spec (ut_vocab_size tr) (length (ut_special tr) + 1)) as [L|L]; [discriminate|]. apply bind_ok in H. destruct H as (pieces & H1 & H2). apply lift_ok in H2.
        exists pieces, (u_fallback m), (Some 0%N). split; [reflexivity|]. split; [lia|]. split; [exact H1|]. split; [exact H2|]. exists 0%N. auto.
    - cbn [length] in *. destruct (Nat.ltb_spec (ut_vocab_size tr) (length (ut_special tr) + 0)) as [L|L]; [discriminate|]. apply bind_ok in H. destruct H as (pieces & H1 & H2). apply lift_ok in H2.
      exists pieces, (u_fallback m), None. split; [reflexivity|]. split; [lia|]. split; [exact H1|]. split; [exact H2|reflexivity].
  Qed.

  (** The pieces of the loop are seeds. *)
  Lemma m_kept_incl ex pieces : forall i, incl (map fst (m_kept enough i ex pieces)) (map fst pieces).
  Proof.
    induction pieces as [|[t s] pieces IH]; intros i; cbn [m_kept map fst]; [apply incl_refl|]. destruct (enough (ex i)); cbn [map fst]; [apply incl_cons; [left; reflexivity|]|]; apply incl_tl, IH.
  Qed.
  Lemma m_step_incl ex pieces : incl (map fst (m_step A nan enough rescore ex pieces)) (map fst pieces).
  Proof.
    destruct pieces as [|[t s] pieces]; cbn [m_step]; [apply incl_refl|]. rewrite map_map. cbn [fst map]. apply incl_cons; [left; reflexivity|]. apply incl_tl. apply m_kept_incl.
  Qed.
  Lemma em_sub_incl n : forall step pieces pieces', em_sub A nan enough rescore e_step n step pieces = Ok pieces' -> incl (map fst pieces') (map fst pieces).
  Proof.
    induction n as [|n IH]; intros step pieces pieces' H; cbn [em_sub] in H; [injection H as <-; apply incl_refl|].
    apply bind_ok in H. destruct H as (ex & _ & H). apply bind_ok in H. destruct H as (m0 & _ & H). apply IH in H. eapply incl_tran; [exact H|]. apply m_step_incl.
  Qed.
  Lemma em_loop_incl : only_drops prune -> forall fuel tr step pieces pieces', em_loop A nan enough rescore e_step prune fuel tr step pieces = Ok pieces' -> incl (map fst pieces') (map fst pieces).
  Proof.
    intros OD. induction fuel as [|fuel IH]; intros tr step pieces pieces' H; cbn [em_loop] in H; [discriminate|]. apply bind_ok in H. destruct H as (p1 & E1 & H). apply em_sub_incl in E1.
    destruct (length p1 <=? _); [injection H as <-; exact E1|]. apply bind_ok in H. destruct H as (p2 & E2 & H). apply bind_ok in H. destruct H as (m0 & _ & H). apply IH in H. eapply incl_tran; [exact H|]. eapply incl_tran; [|exact E1].
    unfold of_option in E2. destruct (prune _ p1) as [p2'|] eqn:EP; [|discriminate]. injection E2 as ->. exact (OD _ _ _ EP).
  Qed.

  Lemma train_spec fuel tr wc m sp : uni_train A is_nan missing nan enough rescore seed e_step prune arrange fuel tr wc = Ok (m, sp) ->
    exists pieces m1, em_loop A nan enough rescore e_step prune fuel tr 0 ((training_unk, nan) :: seed wc) = Ok pieces /\ uni_from A pieces (Some 0%N) false = Ok m1 /\
      finalize A is_nan missing tr m1 (required_chars arrange tr wc) = Ok m /\ sp = ut_special tr /\ length (required_chars arrange tr wc) <= ut_vocab_size tr.
  Proof.
    unfold uni_train. destruct (Nat.ltb_spec (ut_vocab_size tr) (length (required_chars arrange tr wc))) as [L|L]; [discriminate|]. intros H. apply bind_ok in H. destruct H as (m0 & _ & H). apply bind_ok in H. destruct H as (ps & E1 & H).
    apply bind_ok in H. destruct H as (m1 & E2 & H). apply lift_ok in E2. apply bind_ok in H. destruct H as (fin & E3 & H). injection H as <- <-. exists ps, m1. auto.
  Qed.

  Lemma required_in tr wc t : any_order arrange -> In t (required_chars arrange tr wc) <-> exists c, t = [c] /\ corpus_char wc (ut_initial tr) c.
  Proof.
    intros AO. unfold required_chars. split.
    - intros H. apply (Permutation_in t (Permutation_sym (AO _))) in H. apply in_map_iff in H. destruct H as (c & <- & H). apply nodup_In in H. exists c. split; [reflexivity|]. apply in_app_or in H. destruct H as [H|H]; [|left; exact H].
      right. apply in_flat_map in H. destruct H as ([w n] & H1 & H2). eauto.
    - intros (c & -> & H). apply (Permutation_in _ (AO _)). apply in_map_iff. exists c. split; [reflexivity|]. apply nodup_In. apply in_or_app. destruct H as [H|(w & n & H1 & H2)]; [right; exact H|]. left. apply in_flat_map. exists (w, n). auto.
  Qed.
  Lemma required_nodup tr wc : any_order arrange -> NoDup (required_chars arrange tr wc).
  Proof.
    intros AO. unfold required_chars. eapply Permutation_NoDup; [apply AO|]. apply FinFun.Injective_map_NoDup; [intros a b H; congruence|]. apply NoDup_nodup.
  Qed.
End unigram.
