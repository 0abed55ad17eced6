(** Proofs about the trainers of WordLevel and WordPiece. *)
From Verif Require Import Base StrBytes ListFacts AMap Utf8 EncodingModel BpeWordModel BpeModel BpeProofs BpeTrainModel BpeTrainSpec BpeTrainProofs BpeTrainProofs8 TrieModel UnigramModel UnigramSpec WordPieceModel WordPieceSpec TrainersModel TrainersSpec.
From Coq Require Import ZArith.

(** ** The order of texts *)
Section order.
  Local Open Scope N_scope.
  Local Ltac Zify.zify_post_hook ::= Z.to_euclidean_division_equations.

  Lemma bytes_leb_same p : forall a b, bytes_leb (p ++ a) (p ++ b) = bytes_leb a b.
  Proof. induction p as [|x p IH]; intros a b; [reflexivity|]. cbn [app bytes_leb]. rewrite N.ltb_irrefl, N.eqb_refl. cbn [orb andb]. apply IH. Qed.

  Lemma bytes_leb_lt p x y : forall a b, x < y -> bytes_leb (p ++ x :: a) (p ++ y :: b) = true /\ bytes_leb (p ++ y :: b) (p ++ x :: a) = false.
  Proof.
    intros a b L. rewrite !bytes_leb_same. cbn [bytes_leb]. replace (x <? y) with true by lia. replace (y <? x) with false by lia. replace (y =? x) with false by lia. auto.
  Qed.

  Lemma encode_char_order c d : is_scalar c = true -> is_scalar d = true -> c < d ->
    exists p x y r r', encode_char c = p ++ x :: r /\ encode_char d = p ++ y :: r' /\ x < y.
  Proof.
    unfold is_scalar, encode_char. intros Sc Sd L. rewrite orb_true_iff, andb_true_iff in Sc, Sd.
    destruct (c <? 128) eqn:C1.
    - destruct (d <? 128) eqn:D1; [exists [], c, d, [], []; auto|]. destruct (d <? 2048) eqn:D2; [|destruct (d <? 65536) eqn:D3]; eexists [], _, _, _, _; (split; [reflexivity|split; [reflexivity|lia]]).
    - destruct (c <? 2048) eqn:C2.
      + replace (d <? 128) with false by lia. destruct (d <? 2048) eqn:D2.
        * destruct (N.lt_ge_cases (c / 64) (d / 64)) as [X|X]; [eexists [], _, _, _, _; (split; [reflexivity|split; [reflexivity|lia]])|].
          assert (E : d / 64 = c / 64) by lia. rewrite E. eexists [_], _, _, _, _. split; [reflexivity|split; [reflexivity|lia]].
        * destruct (d <? 65536) eqn:D3; eexists [], _, _, _, _; (split; [reflexivity|split; [reflexivity|lia]]).
      + replace (d <? 128) with false by lia. replace (d <? 2048) with false by lia. destruct (c <? 65536) eqn:C3.
        * destruct (d <? 65536) eqn:D3; [|eexists [], _, _, _, _; (split; [reflexivity|split; [reflexivity|lia]])].
          destruct (N.lt_ge_cases (c / 4096) (d / 4096)) as [X|X]; [eexists [], _, _, _, _; (split; [reflexivity|split; [reflexivity|lia]])|].
          assert (E : d / 4096 = c / 4096) by lia. rewrite E.
          destruct (N.lt_ge_cases ((c / 64) mod 64) ((d / 64) mod 64)) as [Y|Y]; [eexists [_], _, _, _, _; (split; [reflexivity|split; [reflexivity|lia]])|].
          assert (E2 : (d / 64) mod 64 = (c / 64) mod 64) by lia. rewrite E2. eexists [_; _], _, _, _, _. split; [reflexivity|split; [reflexivity|lia]].
        * replace (d <? 65536) with false by lia.
          destruct (N.lt_ge_cases (c / 262144) (d / 262144)) as [X|X]; [eexists [], _, _, _, _; (split; [reflexivity|split; [reflexivity|lia]])|].
          assert (E : d / 262144 = c / 262144) by lia. rewrite E.
          destruct (N.lt_ge_cases ((c / 4096) mod 64) ((d / 4096) mod 64)) as [Y|Y]; [eexists [_], _, _, _, _; (split; [reflexivity|split; [reflexivity|lia]])|].
          assert (E2 : (d / 4096) mod 64 = (c / 4096) mod 64) by lia. rewrite E2.
          destruct (N.lt_ge_cases ((c / 64) mod 64) ((d / 64) mod 64)) as [Z|Z]; [eexists [_; _], _, _, _, _; (split; [reflexivity|split; [reflexivity|lia]])|].
          assert (E3 : (d / 64) mod 64 = (c / 64) mod 64) by lia. rewrite E3. eexists [_; _; _], _, _, _, _. split; [reflexivity|split; [reflexivity|lia]].
  Qed.
End order.

Lemma text_cons a b c : text_before a b -> text_before (c :: a) (c :: b).
Proof.
  intros [(d & r & ->)|(p & x & y & r & r' & -> & -> & L)]; [left; exists d, r; reflexivity|]. right. exists (c :: p), x, y, r, r'. auto.
Qed.

Lemma bytes_text a : forall b, text_ok a -> text_ok b ->
  (a = b \/ text_before a b) /\ bytes_leb (encode_utf8 a) (encode_utf8 b) = true \/
  text_before b a /\ bytes_leb (encode_utf8 a) (encode_utf8 b) = false.
Proof.
  induction a as [|c a IH]; intros b Ta Tb.
  - left. split; [|destruct (encode_utf8 b); reflexivity]. destruct b as [|d b]; [left; reflexivity|right; left; exists d, b; reflexivity].
  - destruct b as [|d b].
    + right. split; [left; exists c, a; reflexivity|]. cbn [encode_utf8 flat_map]. pose proof (encode_char_len c) as L. pose proof (len_utf8_pos c). destruct (encode_char c) as [|x l]; [cbn in L; lia|]. reflexivity.
    + pose proof (Forall_inv Ta) as Sc. pose proof (Forall_inv Tb) as Sd. cbv beta in Sc, Sd. apply Forall_inv_tail in Ta, Tb.
      cbn [encode_utf8 flat_map]. fold (encode_utf8 a) (encode_utf8 b). destruct (N.lt_trichotomy c d) as [L|[->|L]].
      * destruct (encode_char_order c d Sc Sd L) as (p & x & y & r & r' & -> & -> & Lx). rewrite <- !app_assoc. cbn [app]. left. split; [right; right; exists [], c, d, a, b; auto|]. apply (bytes_leb_lt p x y _ _ Lx).
      * rewrite bytes_leb_same. destruct (IH b Ta Tb) as [[[->|T] ->]|[T ->]]; [left; auto|left; split; [right; apply text_cons; exact T|reflexivity]|right; split; [apply text_cons; exact T|reflexivity]].
      * destruct (encode_char_order d c Sd Sc L) as (p & x & y & r & r' & -> & -> & Lx). rewrite <- !app_assoc. cbn [app]. right. split; [right; exists [], d, c, b, a; auto|]. apply (bytes_leb_lt p x y _ _ Lx).
Qed.

Lemma bytes_leb_trans a : forall b c, bytes_leb a b = true -> bytes_leb b c = true -> bytes_leb a c = true.
Proof.
  induction a as [|x a IH]; intros b c H1 H2; [reflexivity|]. destruct b as [|y b]; [discriminate|]. destruct c as [|z c]; [discriminate|]. cbn [bytes_leb] in *.
  rewrite orb_true_iff, andb_true_iff, N.ltb_lt, N.eqb_eq in *. destruct H1 as [H1|[-> H1]], H2 as [H2|[-> H2]]; [left; lia|left; lia|left; lia|]. right. split; [reflexivity|]. eapply IH; eassumption.
Qed.
Lemma bytes_leb_total a : forall b, bytes_leb a b = false -> bytes_leb b a = true.
Proof.
  induction a as [|x a IH]; intros b H; [discriminate|]. destruct b as [|y b]; [reflexivity|]. cbn [bytes_leb] in *. rewrite orb_false_iff, andb_false_iff, N.ltb_ge, N.eqb_neq in H. destruct H as [H1 H2].
  rewrite orb_true_iff, andb_true_iff, N.ltb_lt, N.eqb_eq. destruct (N.eq_dec x y) as [->|NE]; [|left; lia]. right. split; [reflexivity|]. apply IH. destruct H2; [congruence|assumption].
Qed.

Lemma wl_before_trans a b c : wl_before a b = true -> wl_before b c = true -> wl_before a c = true.
Proof.
  unfold wl_before. destruct (N.eqb_spec (snd a) (snd b)) as [E1|E1], (N.eqb_spec (snd b) (snd c)) as [E2|E2], (N.eqb_spec (snd a) (snd c)) as [E3|E3]; rewrite ?N.ltb_lt; intros H1 H2; try lia. eapply bytes_leb_trans; eassumption.
Qed.
Lemma wl_before_total a b : wl_before a b = false -> wl_before b a = true.
Proof.
  unfold wl_before. destruct (N.eqb_spec (snd a) (snd b)) as [E1|E1], (N.eqb_spec (snd b) (snd a)) as [E2|E2]; rewrite ?N.ltb_ge, ?N.ltb_lt; intros H; try lia. apply bytes_leb_total. exact H.
Qed.

Lemma wl_insert_perm x l : Permutation (x :: l) (wl_insert x l).
Proof.
  induction l as [|y l IH]; cbn [wl_insert]; [apply Permutation_refl|]. destruct (wl_before x y); [apply Permutation_refl|]. etransitivity; [apply perm_swap|]. constructor. exact IH.
Qed.
Lemma wl_sort_perm l : Permutation l (wl_sort l).
Proof. induction l as [|x l IH]; cbn; [constructor|]. etransitivity; [constructor; exact IH|]. apply wl_insert_perm. Qed.

Lemma wl_insert_sorted x l : StronglySorted (fun a b => wl_before a b = true) l -> StronglySorted (fun a b => wl_before a b = true) (wl_insert x l).
Proof.
  induction l as [|y l IH]; intros S1; cbn [wl_insert]; [repeat constructor|]. inversion S1 as [|? ? S2 F]; subst. destruct (wl_before x y) eqn:E.
  - constructor; [exact S1|]. constructor; [exact E|]. eapply Forall_impl; [|exact F]. cbv beta. intros z Hz. eapply wl_before_trans; eassumption.
  - constructor; [apply IH; exact S2|]. eapply Permutation_Forall; [apply wl_insert_perm|]. constructor; [apply wl_before_total; exact E|exact F].
Qed.
Lemma wl_sort_sorted l : StronglySorted (fun a b => wl_before a b = true) (wl_sort l).
Proof. induction l as [|x l IH]; cbn; [constructor|]. apply wl_insert_sorted. exact IH. Qed.

Lemma sorted_strict l : NoDup (map fst l) -> Forall (fun wn => text_ok (fst wn)) l ->
  StronglySorted (fun a b => wl_before a b = true) l -> StronglySorted word_before l.
Proof.
  intros D T H. induction H as [|a l H IH F]; [constructor|]. cbn [map] in D. inversion D as [|? ? N1 D']; subst. pose proof (Forall_inv T) as Ta. apply Forall_inv_tail in T. constructor; [apply IH; assumption|].
  rewrite Forall_forall in F, T. apply Forall_forall. intros b Hb. specialize (F b Hb). specialize (T b Hb). unfold word_before, wl_before in *. destruct (N.eqb_spec (snd a) (snd b)) as [E|E]; [|left; apply N.ltb_lt; exact F].
  right. split; [exact E|]. destruct (bytes_text (fst a) (fst b) Ta T) as [[[X|X] _]|[_ X]]; [|exact X|congruence]. exfalso. apply N1. rewrite X. apply in_map. exact Hb.
Qed.

Lemma text_before_irrefl a b : text_ok a -> text_ok b -> text_before a b -> text_before b a -> False.
Proof.
  assert (L : forall a b, text_ok a -> text_ok b -> text_before a b -> bytes_leb (encode_utf8 b) (encode_utf8 a) = false).
  { clear. intros a b Ta Tb [(c & r & ->)|(p & x & y & r & r' & -> & -> & L)].
    - rewrite encode_utf8_app. rewrite <- (app_nil_r (encode_utf8 a)) at 2. rewrite bytes_leb_same. cbn [encode_utf8 flat_map]. pose proof (encode_char_len c) as L. pose proof (len_utf8_pos c). destruct (encode_char c) as [|z l]; [cbn in L; lia|]. reflexivity.
    - rewrite !encode_utf8_app, bytes_leb_same. apply Forall_app in Ta, Tb. destruct Ta as [_ Ta], Tb as [_ Tb]. apply Forall_inv in Ta, Tb. destruct (encode_char_order x y Ta Tb L) as (q & u & v & s & s' & Eu & Ev & Lu).
      cbn [encode_utf8 flat_map]. rewrite Eu, Ev, <- !app_assoc. cbn [app]. apply (bytes_leb_lt q u v _ _ Lu). }
  intros Ta Tb H1 H2. apply L in H1; [|assumption|assumption]. apply L in H2; [|assumption|assumption]. apply bytes_leb_total in H1. congruence.
Qed.

Lemma sorted_unique {X} (R : X -> X -> Prop) (P : X -> Prop) : (forall a b, P a -> P b -> R a b -> R b a -> False) -> forall l l', Forall P l -> StronglySorted R l -> StronglySorted R l' -> Permutation l l' -> l = l'.
Proof.
  intros AS l. induction l as [|a l IH]; intros l' F S1 S2 Pm.
  - apply Permutation_nil in Pm. congruence.
  - destruct l' as [|b l']; [apply Permutation_sym, Permutation_nil in Pm; discriminate|]. inversion S1 as [|? ? S1' F1]; subst. inversion S2 as [|? ? S2' F2]; subst.
    assert (Pb : P b) by (rewrite Forall_forall in F; apply F; apply (Permutation_in b (Permutation_sym Pm)); left; reflexivity). assert (Pa : P a) by exact (Forall_inv F).
    assert (E : a = b).
    { assert (Ia : In a (b :: l')) by (apply (Permutation_in a Pm); left; reflexivity). assert (Ib : In b (a :: l)) by (apply (Permutation_in b (Permutation_sym Pm)); left; reflexivity).
      destruct Ia as [Ia|Ia]; [congruence|]. destruct Ib as [Ib|Ib]; [congruence|]. exfalso. rewrite Forall_forall in F1, F2. eapply (AS a b); auto. }
    subst b. f_equal. apply IH; [exact (Forall_inv_tail F)|assumption|assumption|]. eapply Permutation_cons_inv. exact Pm.
Qed.

Lemma word_before_asym a b : text_ok (fst a) -> text_ok (fst b) -> word_before a b -> word_before b a -> False.
Proof. intros Ta Tb [H1|[E1 H1]] [H2|[E2 H2]]; try lia. exact (text_before_irrefl _ _ Ta Tb H1 H2). Qed.

(** ** Numbering *)
Lemma enumerate_indexed l : forall pre, NoDup (pre ++ l) -> enumerate_into (length pre) l (indexed pre) = indexed (pre ++ l).
Proof.
  induction l as [|w l IH]; intros pre D; cbn [enumerate_into]; [rewrite app_nil_r; reflexivity|].
  assert (NW : ~ In w pre) by (intros H; apply NoDup_remove_2 in D; apply D; apply in_or_app; auto).
  rewrite aset_absent by (apply aget_none; [apply str_eqb_eq|rewrite indexed_keys; exact NW]). rewrite <- indexed_snoc. specialize (IH (pre ++ [w])). rewrite app_length in IH. cbn [length] in IH. rewrite <- app_assoc in IH. apply IH. exact D.
Qed.

Lemma enumerate_len l : forall i m, length (enumerate_into i l m) <= length m + length l.
Proof.
  induction l as [|w l IH]; intros i m; cbn [enumerate_into length]; [lia|]. etransitivity; [apply IH|]. rewrite (aset_len _ str_eqb_eq). destruct (amem str_eqb w m); lia.
Qed.

Lemma indexed_numbered toks : NoDup toks -> numbered (fun t => aget str_eqb t (indexed toks)) (fun i => aget N.eqb i (reverse_vocab (indexed toks))) toks.
Proof.
  intros D. split; [exact D|]. split; [intros t i; apply aget_indexed; exact D|]. intros i.
  destruct (aget N.eqb i (reverse_vocab (indexed toks))) as [t|] eqn:E.
  - apply reverse_vocab_in, indexed_in in E. symmetry. exact E.
  - destruct (nth_error toks (N.to_nat i)) as [t|] eqn:E2; [|reflexivity]. apply indexed_in in E2. apply reverse_vocab_has in E2. destruct E2 as (t' & E2). congruence.
Qed.
