(** Proofs for C92. *)
From Coq Require Import ZArith String Ascii DecimalString NArith.
From Verif Require Import Base ListFacts StrBytes VisualModel VisualSpec.

(** ** The states of the characters *)
Lemma change_at_length {A} (f : A -> A) : forall l i, length (change_at i f l) = length l.
Proof. induction l as [|x l IH]; intros [|i]; cbn; auto. Qed.
Lemma change_at_nth {A} (f : A -> A) : forall l i j, nth_error (change_at i f l) j = if i =? j then option_map f (nth_error l j) else nth_error l j.
Proof.
  induction l as [|x l IH]; intros i j; [destruct i, j; cbn [change_at nth_error option_map]; repeat match goal with |- context[if ?b then _ else _] => destruct b end; reflexivity|].
  destruct i as [|i], j as [|j]; cbn [change_at nth_error]; try reflexivity. rewrite IH. reflexivity.
Qed.

Lemma range_change {A} (f : A -> A) a : forall n j (l : list A), a + j + n <= length l ->
  exists l', for_each (fun l i => py_change i f l) l (map (fun k => (Z.of_nat a + Z.of_nat k)%Z) (seq j n)) = Ok l' /\ length l' = length l /\
    forall i, nth_error l' i = if (a + j <=? i) && (i <? a + j + n) then option_map f (nth_error l i) else nth_error l i.
Proof.
  induction n as [|n IH]; intros j l L.
  - exists l. split; [reflexivity|]. split; [reflexivity|]. intros i. destruct (a + j <=? i) eqn:E; [|reflexivity]. replace (i <? a + j + 0) with false by lia. reflexivity.
  - cbn [seq map for_each]. unfold py_change at 1. replace ((0 <=? Z.of_nat a + Z.of_nat j) && (Z.of_nat a + Z.of_nat j <? Z.of_nat (length l)))%Z with true by lia. cbn [bind].
    replace (Z.to_nat (Z.of_nat a + Z.of_nat j)) with (a + j) by lia.
    destruct (IH (S j) (change_at (a + j) f l)) as (l' & E & LL & N); [rewrite change_at_length; lia|]. exists l'. split; [exact E|]. split; [rewrite LL; apply change_at_length|].
    intros i. rewrite N, change_at_nth. destruct (Nat.eq_dec i (a + j)) as [->|D].
    + replace (a + S j <=? a + j) with false by lia. cbn [andb]. rewrite Nat.eqb_refl. replace ((a + j <=? a + j) && (a + j <? a + j + S n)) with true by lia. reflexivity.
    + replace (a + j =? i) with false by lia. replace ((a + j <=? i) && (i <? a + j + S n)) with ((a + S j <=? i) && (i <? a + S j + n)) by lia. reflexivity.
Qed.

Lemma py_range_change {A} (f : A -> A) a b (l : list A) : (a < b -> 0 <= a /\ b <= Z.of_nat (length l))%Z ->
  exists l', for_each (fun l i => py_change i f l) l (py_range a b) = Ok l' /\ length l' = length l /\
    forall i, nth_error l' i = if ((a <=? Z.of_nat i) && (Z.of_nat i <? b))%Z then option_map f (nth_error l i) else nth_error l i.
Proof.
  intros H. unfold py_range. destruct (Z.ltb_spec a b) as [L|L].
  - destruct (H L) as [H1 H2]. destruct (range_change f (Z.to_nat a) (Z.to_nat (b - a)) 0 l ltac:(lia)) as (l' & E & LL & N). rewrite Z2Nat.id in E by lia.
    exists l'. split; [exact E|]. split; [exact LL|]. intros i. rewrite N. replace ((Z.to_nat a + 0 <=? i) && (i <? Z.to_nat a + 0 + Z.to_nat (b - a))) with ((a <=? Z.of_nat i) && (Z.of_nat i <? b))%Z by lia. reflexivity.
  - replace (Z.to_nat (b - a)) with 0 by lia. exists l. split; [reflexivity|]. split; [reflexivity|]. intros i. replace ((a <=? Z.of_nat i) && (Z.of_nat i <? b))%Z with false by lia. reflexivity.
Qed.

(** The last annotation over [i], numbered from [j]. *)
Definition notedb (a : annotation) (i : nat) : bool := ((a_start a <=? Z.of_nat i) && (Z.of_nat i <? a_end a))%Z.
Fixpoint note_at (annos : list annotation) (j i : nat) (acc : option nat) : option nat :=
  match annos with [] => acc | a :: l => note_at l (S j) i (if notedb a i then Some j else acc) end.

Lemma anno_map_loop n : forall annos j m, length m = n -> Forall (fun a => (a_start a < a_end a -> 0 <= a_start a /\ a_end a <= Z.of_nat n)%Z) annos ->
  exists m', for_each (fun m ka => for_each (fun m i => py_change i (fun _ : option nat => Some (fst ka)) m) m (py_range (a_start (snd ka)) (a_end (snd ka))))
    m (combine (seq j (length annos)) annos) = Ok m' /\ length m' = n /\
    forall i, nth_error m' i = option_map (note_at annos j i) (nth_error m i).
Proof.
  induction annos as [|a annos IH]; intros j m L F; cbn [length seq combine for_each note_at].
  - exists m. split; [reflexivity|]. split; [exact L|]. intros i. destruct (nth_error m i); reflexivity.
  - apply Forall_cons_iff in F. destruct F as [F1 F2]. cbn [fst snd]. destruct (py_range_change (fun _ => Some j) (a_start a) (a_end a) m) as (m1 & E & L1 & N1); [rewrite L; exact F1|].
    rewrite E. cbn [bind]. destruct (IH (S j) m1 ltac:(lia) F2) as (m2 & E2 & L2 & N2). exists m2. split; [exact E2|]. split; [exact L2|]. intros i. rewrite N2, N1. unfold notedb. destruct ((a_start a <=? Z.of_nat i) && (Z.of_nat i <? a_end a))%Z, (nth_error m i); reflexivity.
Qed.

Definition overb (t : shown_token) (i : nat) : bool := match snd t with Some (a, b) => (a <=? i) && (i <? b) | None => false end.
Fixpoint toks_at (toks : list shown_token) (j i : nat) : list nat :=
  match toks with [] => [] | t :: l => (if overb t i then [j] else []) ++ toks_at l (S j) i end.

Lemma states_loop n : forall toks j l, length l = n -> Forall (fun t : shown_token => forall a b, snd t = Some (a, b) -> a < b -> b <= n) toks ->
  exists l', for_each (fun l kt => match snd (snd kt) with
                                   | None => Ok l
                                   | Some (a, b) => for_each (fun l i => py_change i (add_token (fst kt)) l) l (py_range (Z.of_nat a) (Z.of_nat b))
                                   end) l (combine (seq j (length toks)) toks) = Ok l' /\ length l' = n /\
    forall i, nth_error l' i = option_map (fun c => mkCS (c_ix c) (c_tokens c ++ toks_at toks j i) (c_anno c)) (nth_error l i).
Proof.
  induction toks as [|t toks IH]; intros j l L F; cbn [length seq combine for_each toks_at].
  - exists l. split; [reflexivity|]. split; [exact L|]. intros i. destruct (nth_error l i) as [[x y z]|]; cbn; rewrite ?app_nil_r; reflexivity.
  - apply Forall_cons_iff in F. destruct F as [F1 F2]. cbn [fst snd]. unfold overb. destruct t as [tok [[a b]|]]; cbn [snd] in *.
    + destruct (py_range_change (add_token j) (Z.of_nat a) (Z.of_nat b) l) as (l1 & E & L1 & N1); [rewrite L; intros X; specialize (F1 a b eq_refl); lia|].
      rewrite E. cbn [bind]. destruct (IH (S j) l1 ltac:(lia) F2) as (l2 & E2 & L2 & N2). exists l2. split; [exact E2|]. split; [exact L2|]. intros i. rewrite N2, N1.
      replace ((Z.of_nat a <=? Z.of_nat i) && (Z.of_nat i <? Z.of_nat b))%Z with ((a <=? i) && (i <? b)) by lia.
      destruct ((a <=? i) && (i <? b)), (nth_error l i) as [c|]; cbn; rewrite <- ?app_assoc; reflexivity.
    + cbn [bind]. destruct (IH (S j) l L F2) as (l2 & E2 & L2 & N2). exists l2. split; [exact E2|]. split; [exact L2|]. intros i. rewrite N2. reflexivity.
Qed.

Definition state_at (toks : list shown_token) (annos : list annotation) (i : nat) : char_state := mkCS i (toks_at toks 0 i) (note_at annos 0 i None).

Lemma nth_ext_error {A} : forall l l' : list A, length l = length l' -> (forall i, i < length l -> nth_error l i = nth_error l' i) -> l = l'.
Proof.
  induction l as [|x l IH]; intros [|y l'] L H; try discriminate; [reflexivity|]. pose proof (H 0 ltac:(cbn; lia)) as H0. cbn in H0. injection H0 as ->. f_equal. apply IH; [cbn in L; lia|]. intros i Hi. exact (H (S i) ltac:(cbn; lia)).
Qed.
Lemma nth_seq : forall n j i, i < n -> nth_error (seq j n) i = Some (j + i).
Proof. induction n as [|n IH]; intros j [|i] H; try lia; cbn [seq nth_error]; [f_equal; lia|]. rewrite IH by lia. f_equal. lia. Qed.
Lemma nth_repeat {A} (x : A) : forall n i, i < n -> nth_error (repeat x n) i = Some x.
Proof. induction n as [|n IH]; intros [|i] H; try lia; cbn; [reflexivity|]. apply IH. lia. Qed.
Lemma nth_combine {A B} : forall (l : list A) (m : list B) i a b, nth_error l i = Some a -> nth_error m i = Some b -> nth_error (combine l m) i = Some (a, b).
Proof. induction l as [|x l IH]; intros [|y m] [|i] a b H1 H2; try discriminate; cbn in *; [congruence|]. auto. Qed.

Lemma states_ok text toks annos : tokens_fit text toks -> annos_fit text annos ->
  make_char_states text toks annos = Ok (map (state_at toks annos) (seq 0 (length text))).
Proof.
  intros F1 F2. unfold make_char_states, make_anno_map.
  destruct (anno_map_loop (length text) annos 0 (repeat None (length text)) (repeat_length _ _) F2) as (m & E1 & L1 & N1). rewrite E1. cbn [bind].
  destruct (states_loop (length text) toks 0 (map (fun i => mkCS i [] None) (seq 0 (length text)))) as (l & E2 & L2 & N2); [rewrite map_length, seq_length; reflexivity|exact F1|]. rewrite E2. cbn [bind]. f_equal.
  apply nth_ext_error; [rewrite !map_length, combine_length, seq_length; lia|]. intros i Hi. rewrite map_length, combine_length, L1, L2, Nat.min_id in Hi.
  rewrite !nth_error_map, nth_seq by exact Hi. cbn [option_map].
  specialize (N1 i). rewrite nth_repeat in N1 by exact Hi. specialize (N2 i). rewrite nth_error_map, nth_seq in N2 by exact Hi. cbn [option_map c_ix c_tokens c_anno app] in N2. cbn [option_map] in N1.
  rewrite (nth_combine _ _ _ _ _ N2 N1). reflexivity.
Qed.

(** ** What the states say *)
Lemma notedb_spec a i : notedb a i = true <-> noted a i.
Proof. unfold notedb, noted. lia. Qed.
Lemma overb_spec t i : overb t i = true <-> over t i.
Proof.
  unfold overb, over. destruct (snd t) as [[a b]|]; split; intros H; try discriminate.
  - exists a, b. split; [reflexivity|lia].
  - destruct H as (a' & b' & E & H). injection E as <- <-. lia.
  - destruct H as (a' & b' & E & _). discriminate.
Qed.

Lemma note_at_spec : forall annos j i acc,
  (note_at annos j i acc = acc /\ not_noted annos i) \/ exists k a, note_at annos j i acc = Some (j + k) /\ last_noted annos i k a.
Proof.
  induction annos as [|a annos IH]; intros j i acc; cbn [note_at]; [left; split; [reflexivity|constructor]|].
  destruct (IH (S j) i (if notedb a i then Some j else acc)) as [[E N]|(k & b & E & l1 & l2 & -> & L & H & F)].
  - destruct (notedb a i) eqn:B.
    + right. exists 0, a. rewrite Nat.add_0_r. split; [exact E|]. exists [], annos. split; [reflexivity|]. split; [reflexivity|]. split; [apply notedb_spec; exact B|exact N].
    + left. split; [exact E|]. constructor; [|exact N]. rewrite <- notedb_spec. congruence.
  - right. exists (S k), b. split; [rewrite E; f_equal; lia|]. exists (a :: l1), l2. cbn. auto.
Qed.
Lemma note_unique annos i k a : last_noted annos i k a -> note_at annos 0 i None = Some k /\ nth_error annos k = Some a.
Proof.
  intros (l1 & l2 & -> & <- & H & F). split; [|rewrite nth_error_app2, Nat.sub_diag by lia; reflexivity].
  change (length l1) with (0 + length l1) at 1. generalize 0 at 1 2 as j. generalize (None : option nat) as acc. induction l1 as [|b l1 IH]; intros acc j; cbn [app note_at length].
  - apply notedb_spec in H. rewrite H, Nat.add_0_r. generalize (Datatypes.S j) as j'. induction F as [|b l2 Hb _ IH]; intros j'; [reflexivity|]. cbn [note_at]. destruct (notedb b i) eqn:B; [apply notedb_spec in B; contradiction|apply IH].
  - rewrite IH. f_equal. lia.
Qed.
Lemma note_none annos i : not_noted annos i -> note_at annos 0 i None = None.
Proof.
  generalize 0 as j. induction annos as [|a annos IH]; intros j F; [reflexivity|]. apply Forall_cons_iff in F. destruct F as [F1 F2]. cbn [note_at]. destruct (notedb a i) eqn:B; [apply notedb_spec in B; contradiction|]. apply IH. exact F2.
Qed.

Lemma toks_at_spec : forall toks j i,
  (toks_at toks j i = [] /\ no_token toks i) \/ exists k r tok, toks_at toks j i = (j + k) :: r /\ first_over toks i k tok.
Proof.
  induction toks as [|t toks IH]; intros j i; cbn [toks_at]; [left; split; [reflexivity|constructor]|]. destruct (overb t i) eqn:B.
  - right. exists 0, (toks_at toks (S j) i), (fst t). rewrite Nat.add_0_r. split; [reflexivity|]. exists [], t, toks. apply overb_spec in B. repeat split; auto.
  - assert (NB : ~ over t i) by (rewrite <- overb_spec; congruence). destruct (IH (S j) i) as [[E N]|(k & r & tok & E & l1 & u & l2 & -> & L & E' & O & F)].
    + left. cbn [app]. split; [exact E|]. constructor; assumption.
    + right. exists (S k), r, tok. cbn [app]. split; [rewrite E; f_equal; lia|]. exists (t :: l1), u, l2. cbn. auto 8.
Qed.
Lemma toks_none : forall toks j i, no_token toks i -> toks_at toks j i = [].
Proof.
  induction toks as [|t toks IH]; intros j i F; [reflexivity|]. apply Forall_cons_iff in F. destruct F as [F1 F2]. cbn [toks_at]. destruct (overb t i) eqn:B; [apply overb_spec in B; contradiction|]. apply IH. exact F2.
Qed.
Lemma toks_first toks i k tok : first_over toks i k tok -> exists r, toks_at toks 0 i = k :: r /\ exists o, nth_error toks k = Some (tok, o).
Proof.
  intros (l1 & t & l2 & -> & <- & E & O & F).
  assert (R : forall j, exists r, toks_at (l1 ++ t :: l2) j i = (j + length l1) :: r).
  { induction F as [|u l1 Hu _ IH]; intros j; cbn [app toks_at length].
    - apply overb_spec in O. rewrite O, Nat.add_0_r. cbn [app]. eauto.
    - destruct (overb u i) eqn:B; [apply overb_spec in B; contradiction|]. cbn [app]. destruct (IH (S j)) as (r & ->). exists r. f_equal. lia. }
  destruct (R 0) as (r & ER). exists r. split; [exact ER|]. exists (snd t). rewrite nth_error_app2, Nat.sub_diag by lia. cbn. rewrite <- E. destruct t; reflexivity.
Qed.
Lemma toks_many : forall toks j i, 1 < length (toks_at toks j i) <-> two_over toks i.
Proof.
  assert (ONE : forall toks j i, 0 < length (toks_at toks j i) <-> exists l1 t l2, toks = l1 ++ t :: l2 /\ over t i).
  { induction toks as [|t toks IH]; intros j i; cbn [toks_at]; split; intros H; [cbn in H; lia|destruct H as ([|? ?] & ? & ? & E & _); discriminate| |].
    - destruct (overb t i) eqn:B; [exists [], t, toks; split; [reflexivity|apply overb_spec; exact B]|]. cbn [app] in H. apply IH in H. destruct H as (l1 & u & l2 & -> & O). exists (t :: l1), u, l2. auto.
    - rewrite app_length. destruct (overb t i) eqn:B; [cbn; lia|]. cbn [length]. apply (IH (S j)). destruct H as ([|v l1] & u & l2 & E & O); injection E as <- E; [apply overb_spec in O; congruence|]. exists l1, u, l2. auto. }
  induction toks as [|t toks IH]; intros j i; cbn [toks_at]; split; intros H; [cbn in H; lia|destruct H as ([|? ?] & ? & ? & ? & ? & E & _); discriminate| |].
  - destruct (overb t i) eqn:B.
    + cbn [app length] in H. assert (X : 0 < length (toks_at toks (S j) i)) by lia. apply ONE in X. destruct X as (l1 & u & l2 & -> & O). exists [], t, l1, u, l2. apply overb_spec in B. auto.
    + cbn [app] in H. apply IH in H. destruct H as (l1 & u & l2 & v & l3 & -> & O1 & O2). exists (t :: l1), u, l2, v, l3. auto.
  - rewrite app_length. destruct H as ([|v l1] & u & l2 & w & l3 & E & O1 & O2); injection E as <- E.
    + apply overb_spec in O1. rewrite O1. cbn [length]. assert (X : 0 < length (toks_at toks (S j) i)) by (apply ONE; exists l2, w, l3; auto). lia.
    + assert (X : 1 < length (toks_at toks (S j) i)) by (apply IH; exists l1, u, l2, w, l3; auto). lia.
Qed.

(** ** Reading *)
Lemma read_escaped inside : forall x r, page MText inside (escape x ++ r) = option_map (app (map (fun c => (c, inside)) x)) (page MText inside r).
Proof.
  induction x as [|c x IH]; intros r; [cbn; destruct (page MText inside r); reflexivity|]. unfold escape in *. cbn [flat_map map]. rewrite <- app_assoc.
  assert (K : forall o : option (list (char * list str)), option_map (cons (c, inside)) (option_map (app (map (fun c => (c, inside)) x)) o) = option_map (app ((c, inside) :: map (fun c => (c, inside)) x)) o) by (intros [o|]; reflexivity).
  rewrite <- K, <- IH. unfold escape_char. destruct (N.eqb_spec c 38) as [->|D1]; [reflexivity|]. destruct (N.eqb_spec c 60) as [->|D2]; [reflexivity|]. destruct (N.eqb_spec c 62) as [->|D3]; [reflexivity|].
  destruct (N.eqb_spec c 34) as [->|D4]; [reflexivity|]. destruct (N.eqb_spec c 39) as [->|D5]; [reflexivity|]. cbn [app page]. replace (N.eqb c 60) with false by lia. replace (N.eqb c 38) with false by lia. reflexivity.
Qed.

Inductive tag_text : str -> Prop :=
| tt_nil : tag_text []
| tt_char c x : c <> 34%N -> c <> 62%N -> tag_text x -> tag_text (c :: x)
| tt_quote y x : ~ In 34%N y -> tag_text x -> tag_text (quote ++ y ++ quote ++ x).

Lemma read_quoted inside : forall y acc r, ~ In 34%N y -> page (MQuoted acc) inside (y ++ quote ++ r) = page (MTag (acc ++ y ++ quote)) inside r.
Proof.
  induction y as [|c y IH]; intros acc r N; [reflexivity|]. cbn [app page]. replace (N.eqb c 34) with false by (symmetry; apply N.eqb_neq; intros ->; apply N; left; reflexivity).
  rewrite IH by (intros H; apply N; right; exact H). rewrite <- app_assoc. reflexivity.
Qed.
Lemma read_tag inside : forall x, tag_text x -> forall acc r, page (MTag acc) inside (x ++ r) = page (MTag (acc ++ x)) inside r.
Proof.
  induction 1 as [|c x N1 N2 _ IH|y x N _ IH]; intros acc r; [rewrite app_nil_r; reflexivity| |].
  - cbn [app page]. replace (N.eqb c 62) with false by lia. replace (N.eqb c 34) with false by lia. rewrite IH, <- app_assoc. reflexivity.
  - rewrite <- !app_assoc. cbn [quote app page]. replace (N.eqb 34 62) with false by reflexivity. replace (N.eqb 34 34) with true by reflexivity.
    change (34%N :: x ++ r) with (quote ++ (x ++ r)). rewrite read_quoted by exact N. rewrite IH. f_equal. f_equal. unfold quote. rewrite <- !app_assoc. reflexivity.
Qed.
Lemma read_open inside tag r c x : tag = c :: x -> c <> 47%N -> tag_text tag -> page MText inside (60%N :: tag ++ 62%N :: r) = page MText (tag :: inside) r.
Proof.
  intros E N T. cbn [page]. replace (N.eqb 60 60) with true by reflexivity. rewrite read_tag by exact T. cbn [app page]. replace (N.eqb 62 62) with true by reflexivity. rewrite E.
  destruct c as [|p]; [reflexivity|]. repeat (destruct p as [p|p|]; try reflexivity; try congruence).
Qed.
Lemma read_close inside tag r : page MText (tag :: inside) (lit "</span>" ++ r) = page MText inside r.
Proof. reflexivity. Qed.

Lemma tag_plain x r : forallb (fun c => negb (N.eqb c 34) && negb (N.eqb c 62)) x = true -> tag_text r -> tag_text (x ++ r).
Proof. intros H T. induction x as [|c x IH]; [exact T|]. cbn [forallb] in H. apply andb_true_iff in H. destruct H as [H1 H2]. cbn [app]. constructor; [lia|lia|auto]. Qed.

(** ** One span *)
Lemma joined_plain (l : list str) : Forall (fun x => forallb (fun c => negb (N.eqb c 34) && negb (N.eqb c 62)) x = true) l -> ~ In 34%N (joined l).
Proof.
  intros F. assert (X : forall x : str, forallb (fun c => negb (N.eqb c 34) && negb (N.eqb c 62)) x = true -> ~ In 34%N x).
  { intros x H I. rewrite forallb_forall in H. apply H in I. discriminate I. }
  induction F as [|x l H F IH]; [intros []|]. destruct l as [|y l]; [apply X; exact H|]. cbn [joined]. intros I. apply in_app_iff in I. destruct I as [I|[I|I]]; [exact (X x H I)|discriminate I|exact (IH I)].
Qed.

Lemma read_span classes data inside x r : Forall (fun x => forallb (fun c => negb (N.eqb c 34) && negb (N.eqb c 62)) x = true) classes -> tag_text (data ++ lit " ") ->
  page MText inside ((lit "<span class=" ++ quote ++ joined classes ++ quote ++ lit " " ++ data ++ lit " >" ++ escape x ++ lit "</span>") ++ r) =
  option_map (app (map (fun c => (c, span_tag classes data :: inside)) x)) (page MText inside r).
Proof.
  intros F T.
  assert (E : (lit "<span class=" ++ quote ++ joined classes ++ quote ++ lit " " ++ data ++ lit " >" ++ escape x ++ lit "</span>") ++ r = 60%N :: span_tag classes data ++ 62%N :: escape x ++ lit "</span>" ++ r).
  { unfold span_tag. change (lit "<span class=") with (60%N :: lit "span class="). change (lit " >") with (lit " " ++ [62%N]). cbn [app]. rewrite <- !app_assoc. reflexivity. }
  rewrite E. erewrite read_open; [|unfold span_tag; change (lit "span class=") with (115%N :: lit "pan class="); cbn [app]; reflexivity|discriminate|].
  - rewrite read_escaped, read_close. reflexivity.
  - unfold span_tag. apply tag_plain; [reflexivity|]. apply (tt_quote (joined classes) (lit " " ++ data ++ lit " ")); [apply joined_plain; exact F|]. apply tag_plain; [reflexivity|exact T].
Qed.

Lemma letter_in c l : letter c l = true <-> In c l.
Proof.
  unfold letter. rewrite existsb_exists. split; [intros (y & I & E); apply N.eqb_eq in E; subst; exact I|]. intros I. exists c. split; [exact I|]. apply N.eqb_refl.
Qed.
Lemma looks_unknown_spec : forall s, looks_unknown s = true <-> unknown_like s.
Proof.
  assert (HERE : forall s, unk_here s = true <-> exists a b c q, s = [a; b; c] ++ q /\
    ((In a (lit "uU") /\ In b (lit "nN") /\ In c (8490%N :: lit "kK")) \/ (In a (lit "oO") /\ In b (lit "oO") /\ In c (lit "vV")))).
  { intros s. split.
    - destruct s as [|a [|b [|c q]]]; try discriminate. unfold unk_here. rewrite orb_true_iff, !andb_true_iff, !letter_in. intros H. exists a, b, c, q. split; [reflexivity|]. cbn in H |- *. intuition.
    - intros (a & b & c & q & -> & H). cbn [app unk_here]. rewrite orb_true_iff, !andb_true_iff, !letter_in. cbn in H |- *. intuition. }
  induction s as [|x s IH].
  - split; [discriminate|]. intros (p & a & b & c & q & E & _). destruct p; discriminate.
  - cbn [looks_unknown]. rewrite orb_true_iff, HERE, IH. split.
    + intros [(a & b & c & q & E & H)|(p & a & b & c & q & E & H)]; [exists [], a, b, c, q; auto|]. exists (x :: p), a, b, c, q. split; [rewrite E; reflexivity|exact H].
    + intros ([|y p] & a & b & c & q & E & H); [left; exists a, b, c, q; auto|]. right. injection E as -> E. exists p, a, b, c, q. auto.
Qed.

Section page_ok.
  Context (text : str) (toks : list shown_token) (annos : list annotation) (NQ : no_quotes toks annos).
  Notation state := (state_at toks annos).

  Lemma span_ok g e group inside : group <> [] -> hd_error group = Some (state g) -> (exists x, List.last group x = state e) -> g <= e < length text ->
    exists span tag, chars_to_html group text toks = Ok span /\
      (forall r, page MText inside (span ++ r) = option_map (app (map (fun c => (c, tag :: inside)) (cut text g (e + 1)))) (page MText inside r)) /\
      (forall i, token_ix (state i) = token_ix (state g) -> token_tag toks i (is_multitoken (state g)) tag).
  Proof.
    intros NG HD (x0 & LS) B. destruct group as [|first group]; [congruence|]. cbn [hd_error] in HD. injection HD as ->.
    assert (LS' : List.last (state g :: group) (state g) = state e).
    { rewrite <- LS. clear. revert x0. generalize (state g) at 1 3 as d. induction group as [|y group IH]; intros d x0; [reflexivity|]. change (List.last (y :: group) (state g) = List.last (y :: group) x0). 
      clear IH. revert y. induction group as [|z group IH]; intros y; [reflexivity|]. cbn [List.last]. apply (IH z). }
    cbn [chars_to_html]. rewrite LS'. change (c_ix (state g)) with g. change (c_ix (state e)) with e.
    destruct (toks_at_spec toks 0 g) as [[ET NT]|(k & rr & tok & ET & FO)].
    - replace (token_ix (state g)) with (@None nat) by (unfold token_ix; cbn [state_at c_tokens]; rewrite ET; reflexivity). cbn [bind fst snd].
      eexists. exists (span_tag [lit "non-token"] []). split; [reflexivity|]. split.
      + intros r. apply (read_span [lit "non-token"] []); [repeat constructor|]. apply (tag_plain (lit " ") []); [reflexivity|constructor].
      + intros i Ei. left. split; [|reflexivity]. destruct (toks_at_spec toks 0 i) as [[_ N]|(k & rr & tok & E & _)]; [exact N|]. unfold token_ix in Ei. cbn [state_at c_tokens] in Ei. rewrite E in Ei. discriminate.
    - cbn [Nat.add] in ET. replace (token_ix (state g)) with (Some k) by (unfold token_ix; cbn [state_at c_tokens]; rewrite ET; reflexivity).
      destruct (toks_first _ _ _ _ FO) as (_ & _ & o & EN). rewrite EN. cbn [bind]. set (multi := is_multitoken (state g)).
      set (classes := [lit "token"] ++ (if multi then [lit "multi-token"] else []) ++ [if Nat.odd k then lit "odd-token" else lit "even-token"]).
      assert (FC : Forall (fun x => forallb (fun c => negb (N.eqb c 34) && negb (N.eqb c 62)) x = true) classes) by (unfold classes; destruct multi, (Nat.odd k); repeat constructor).
      assert (SAME : forall i, token_ix (state i) = Some k -> first_over toks i k tok).
      { intros i Ei. destruct (toks_at_spec toks 0 i) as [[E _]|(k' & r' & tok' & E & FO')]; unfold token_ix in Ei; cbn [state_at c_tokens] in Ei; rewrite E in Ei; [discriminate|]. cbn [Nat.add] in Ei. injection Ei as ->.
        destruct (toks_first _ _ _ _ FO') as (_ & _ & o' & EN'). rewrite EN in EN'. injection EN' as <- _. exact FO'. }
      destruct (looks_unknown tok) eqn:LU; cbn [fst snd].
      + eexists. exists (span_tag (classes ++ [lit "special-token"]) (lit " data-stok=" ++ quote ++ tok ++ quote)). split; [reflexivity|]. split.
        * intros r. apply (read_span (classes ++ [lit "special-token"]) (lit " data-stok=" ++ quote ++ tok ++ quote)); [apply Forall_app; split; [exact FC|repeat constructor]|].
          rewrite <- !app_assoc. apply tag_plain; [reflexivity|]. apply (tt_quote tok (lit " ")); [|apply (tag_plain (lit " ") []); [reflexivity|constructor]].
          destruct NQ as [NQ1 _]. rewrite Forall_forall in NQ1. apply (NQ1 (tok, o)); [eapply nth_error_In; exact EN|apply looks_unknown_spec; exact LU].
        * intros i Ei. right. exists k, tok. split; [apply SAME; exact Ei|]. cbn zeta. right. split; [apply looks_unknown_spec; exact LU|reflexivity].
      + eexists. exists (span_tag classes []). split; [reflexivity|]. split.
        * intros r. apply (read_span classes []); [exact FC|]. apply (tag_plain (lit " ") []); [reflexivity|constructor].
        * intros i Ei. right. exists k, tok. split; [apply SAME; exact Ei|]. cbn zeta. left. split; [rewrite <- looks_unknown_spec; congruence|reflexivity].
  Qed.

  (** ** The span of an annotation *)
  Lemma rank_some x : forall l, In x l -> exists k, rank x l = Some k.
  Proof.
    induction l as [|y l IH]; intros I; [destruct I|]. cbn [rank]. destruct (str_eqb x y) eqn:E; [eauto|]. destruct I as [->|I]; [rewrite str_eqb_refl in E; discriminate|]. destruct (IH I) as (k & ->). cbn. eauto.
  Qed.
  Lemma str_compare_eq : forall a b, str_compare a b = Eq <-> a = b.
  Proof.
    induction a as [|x a IH]; intros [|y b]; cbn; split; intros H; try discriminate; try reflexivity.
    - destruct (N.compare_spec x y) as [->|?|?]; try discriminate. apply IH in H. congruence.
    - injection H as -> ->. rewrite N.compare_refl. apply IH. reflexivity.
  Qed.
  Lemma insert_in x y : forall l, In y (insert_label x l) <-> y = x \/ In y l.
  Proof.
    induction l as [|z l IH]; cbn [insert_label]; [cbn; intuition congruence|]. destruct (str_compare x z) eqn:E.
    - apply str_compare_eq in E. subst z. cbn. intuition congruence.
    - cbn. intuition congruence.
    - cbn [In]. rewrite IH. intuition congruence.
  Qed.
  Lemma sorted_in x : In x (sorted_labels annos) <-> In x (map a_label annos).
  Proof. unfold sorted_labels. induction (map a_label annos) as [|y l IH]; [reflexivity|]. cbn [fold_right]. rewrite insert_in, IH. cbn. intuition congruence. Qed.

  Lemma digits_plain : forall d, ~ In 34%N (lit (NilEmpty.string_of_uint d)).
  Proof. induction d; cbn; try tauto; (intros [H|H]; [discriminate H|exact (IHd H)]). Qed.
  Lemma decimal_plain n : ~ In 34%N (decimal n).
  Proof. unfold decimal, NilZero.string_of_uint. destruct (N.to_uint n) eqn:E; try (rewrite <- E; apply digits_plain). cbn. intuition discriminate. Qed.
  Lemma color_plain h : ~ In 34%N (color h).
  Proof.
    unfold color. intros I. apply in_app_iff in I. destruct I as [I|I]; [cbn in I; intuition discriminate|]. apply in_app_iff in I. destruct I as [I|I]; [exact (decimal_plain h I)|cbn in I; intuition discriminate].
  Qed.

  Definition within (o : option nat) (inside : list str) : Prop :=
    match o with None => inside = [] | Some k => exists a tag, nth_error annos k = Some a /\ anno_tag annos a tag /\ inside = [tag] end.

  Lemma open_ok i : exists op inside, open_opt annos (c_anno (state i)) = Ok op /\ within (c_anno (state i)) inside /\
    forall r, page MText [] (op ++ r) = page MText inside r.
  Proof.
    cbn [state_at c_anno]. destruct (note_at_spec annos 0 i None) as [[E N]|(k & a & E & LN)]; rewrite E.
    - exists [], []. repeat split.
    - cbn [Nat.add] in *. destruct (note_unique _ _ _ _ LN) as (_ & EN). cbn [open_opt within]. unfold open_anno. rewrite EN.
      assert (IL : In (a_label a) (sorted_labels annos)) by (apply sorted_in, in_map; eapply nth_error_In; exact EN). destruct (rank_some _ _ IL) as (rk & ER).
      assert (EH : label_hue annos (a_label a) = Some (10 + N.of_nat rk * h_step (length (sorted_labels annos)))%N) by (unfold label_hue; rewrite ER; reflexivity).
      rewrite EH. set (h := (10 + N.of_nat rk * h_step (length (sorted_labels annos)))%N) in *.
      set (tag := lit "span class=" ++ quote ++ lit "annotation" ++ quote ++ lit " style=" ++ quote ++ lit "color:" ++ color h ++ quote ++ lit " data-label=" ++ quote ++ a_label a ++ quote).
      eexists. exists [tag]. split; [reflexivity|]. split; [exists a, tag; split; [reflexivity|]; split; [exists h; split; [exact EH|reflexivity]|reflexivity]|].
      intros r. assert (EQ : forall u v w x y z : str, (lit "<span class=" ++ u ++ v ++ w ++ x ++ y ++ z) ++ r = 60%N :: (lit "span class=" ++ u ++ v ++ w ++ x ++ y) ++ z ++ r).
      { intros. change (lit "<span class=") with (60%N :: lit "span class="). cbn [app]. rewrite <- !app_assoc. reflexivity. }
      assert (ET : (lit "<span class=" ++ quote ++ lit "annotation" ++ quote ++ lit " style=" ++ quote ++ lit "color:" ++ color h ++ quote ++ lit " data-label=" ++ quote ++ a_label a ++ quote ++ lit ">") ++ r = 60%N :: tag ++ 62%N :: r).
      { unfold tag. change (lit "<span class=") with (60%N :: lit "span class="). cbn [app]. rewrite <- !app_assoc. reflexivity. }
      rewrite ET. apply (read_open [] tag r 115%N (tl tag)); [reflexivity|discriminate|]. unfold tag. apply tag_plain; [reflexivity|]. apply tt_quote; [cbn; intuition discriminate|].
      apply tag_plain; [reflexivity|]. replace (quote ++ lit "color:" ++ color h ++ quote ++ lit " data-label=" ++ quote ++ a_label a ++ quote) with (quote ++ (lit "color:" ++ color h) ++ quote ++ (lit " data-label=" ++ quote ++ a_label a ++ quote)) by (rewrite <- !app_assoc; reflexivity).
      apply tt_quote; [intros I; apply in_app_iff in I; destruct I as [I|I]; [cbn in I; intuition discriminate|exact (color_plain h I)]|].
      apply tag_plain; [reflexivity|]. replace (quote ++ a_label a ++ quote) with (quote ++ a_label a ++ quote ++ []) by (rewrite app_nil_r; reflexivity). apply tt_quote; [|constructor].
      destruct NQ as [_ NQ2]. rewrite Forall_forall in NQ2. apply NQ2. eapply nth_error_In. exact EN.
  Qed.
  Lemma close_ok o inside r : within o inside -> page MText inside (close_opt o ++ r) = page MText [] r.
  Proof. destruct o as [k|]; cbn [within close_opt]; [intros (a & tag & _ & _ & ->); reflexivity|intros ->; reflexivity]. Qed.

  (** ** All spans *)
  Definition good (i : nat) (x : char * list str) : Prop :=
    nth_error text i = Some (fst x) /\ shown_in toks annos i (snd x).
  Definition goods (a : nat) (l : list (char * list str)) : Prop := forall k x, nth_error l k = Some x -> good (a + k) x.
  Definition emits (spans : str) (l : list (char * list str)) (inside : list str) : Prop :=
    forall r, page MText [] (spans ++ r) = option_map (app l) (page MText inside r).

  Lemma cut_nth a b k c : b <= length text -> nth_error (cut text a b) k = Some c -> nth_error text (a + k) = Some c /\ a + k < b.
  Proof.
    unfold cut. intros L H. assert (K : k < b - a) by (assert (X : k < length (firstn (b - a) (skipn a text))) by (apply nth_error_Some; congruence); rewrite firstn_length in X; lia).
    rewrite nth_error_firstn in H. replace (k <? b - a) with true in H by lia. rewrite nth_error_skipn in H. split; [exact H|lia].
  Qed.
  Lemma cut_length a b : a <= b <= length text -> length (cut text a b) = b - a.
  Proof. intros H. unfold cut. rewrite firstn_length, skipn_length. lia. Qed.

  Lemma opt_eqb_eq a b : opt_eqb a b = true <-> a = b.
  Proof. destruct a, b; cbn; rewrite ?Nat.eqb_eq; split; intros; try congruence; try discriminate. Qed.
  Lemma same_key_eq a b : same_key a b = true <-> token_ix a = token_ix b /\ c_anno a = c_anno b.
  Proof. unfold same_key. rewrite andb_true_iff, !opt_eqb_eq. reflexivity. Qed.

  Lemma same_token_ix i j : token_ix (state i) = token_ix (state j) -> same_token toks i j.
  Proof.
    unfold token_ix. cbn [state_at c_tokens]. destruct (toks_at_spec toks 0 i) as [[E1 N1]|(k1 & r1 & t1 & E1 & F1)], (toks_at_spec toks 0 j) as [[E2 N2]|(k2 & r2 & t2 & E2 & F2)]; rewrite E1, E2; intros H; try discriminate.
    - left. auto.
    - right. cbn [Nat.add] in H. injection H as <-. exists k1, t1. split; [exact F1|]. destruct (toks_first _ _ _ _ F1) as (_ & _ & o1 & X1). destruct (toks_first _ _ _ _ F2) as (_ & _ & o2 & X2). rewrite X1 in X2. injection X2 as <- _. exact F2.
  Qed.
  Lemma same_note_ix i j : c_anno (state i) = c_anno (state j) -> same_note annos i j.
  Proof.
    cbn [state_at c_anno]. destruct (note_at_spec annos 0 i None) as [[E1 N1]|(k1 & a1 & E1 & F1)], (note_at_spec annos 0 j None) as [[E2 N2]|(k2 & a2 & E2 & F2)]; rewrite E1, E2; intros H; try discriminate.
    - left. auto.
    - right. cbn [Nat.add] in H. injection H as <-. exists k1, a1. split; [exact F1|]. destruct (note_unique _ _ _ _ F1) as (_ & X1). destruct (note_unique _ _ _ _ F2) as (_ & X2). rewrite X1 in X2. injection X2 as <-. exact F2.
  Qed.

  Lemma group_good g e tag inside : g <= e < length text ->
    (forall i, g <= i <= e -> token_ix (state i) = token_ix (state g) /\ c_anno (state i) = c_anno (state g)) ->
    (forall i, token_ix (state i) = token_ix (state g) -> token_tag toks i (is_multitoken (state g)) tag) ->
    within (c_anno (state g)) inside ->
    goods g (map (fun c => (c, tag :: inside)) (cut text g (e + 1))).
  Proof.
    intros B K T W k x H. rewrite nth_error_map in H. destruct (nth_error (cut text g (e + 1)) k) as [c|] eqn:EC; [|discriminate]. injection H as <-. apply cut_nth in EC; [|lia]. destruct EC as [EC L].
    split; [exact EC|]. cbn [snd]. destruct (K (g + k) ltac:(lia)) as [K1 K2]. exists (is_multitoken (state g)), tag. split; [apply T; exact K1|]. split.
    { intros BG. destruct k as [|k].
      - rewrite Nat.add_0_r. unfold is_multitoken. cbn [state_at c_tokens]. rewrite Nat.ltb_lt. apply toks_many.
      - exfalso. apply (BG (g + k)); [lia|]. destruct (K (g + k) ltac:(lia)) as [K3 K4]. split; [apply same_token_ix; congruence|apply same_note_ix; congruence]. }
    rewrite <- K2 in W. cbn [state_at c_anno] in W. destruct (note_at_spec annos 0 (g + k) None) as [[E N]|(k' & a & E & LN)]; rewrite E in W.
    - left. split; [exact N|]. cbn [within] in W. rewrite W. reflexivity.
    - right. cbn [Nat.add within] in W. destruct W as (a' & tag' & EN & AT & ->). destruct (note_unique _ _ _ _ LN) as (_ & EN'). rewrite EN in EN'. injection EN' as ->. exists k', a, tag'. auto.
  Qed.

  Lemma goods_app a l1 l2 : goods a l1 -> goods (a + length l1) l2 -> goods a (l1 ++ l2).
  Proof.
    intros H1 H2 k x H. destruct (Nat.lt_ge_cases k (length l1)) as [L|L]; [rewrite nth_error_app1 in H by exact L; exact (H1 _ _ H)|].
    rewrite nth_error_app2 in H by exact L. specialize (H2 _ _ H). replace (a + length l1 + (k - length l1)) with (a + k) in H2 by lia. exact H2.
  Qed.

  Lemma last_app_one {A} (l : list A) y x : List.last (l ++ [y]) x = y.
  Proof. induction l as [|z l IH]; [reflexivity|]. cbn [app]. destruct (l ++ [y]) eqn:E; [destruct l; discriminate|]. exact IH. Qed.

  Lemma loop_ok : forall n j g group spans l inside, n = length text - j -> g < j <= length text ->
    group <> [] -> hd_error group = Some (state g) -> (exists x, List.last group x = state (j - 1)) ->
    (forall i, g <= i < j -> token_ix (state i) = token_ix (state g) /\ c_anno (state i) = c_anno (state g)) ->
    within (c_anno (state (j - 1))) inside -> emits spans l inside -> length l = g -> goods 0 l ->
    exists h l', html_loop text toks annos group (c_anno (state (j - 1))) spans (map state (seq j n)) = Ok h /\ read_page h = Some l' /\ length l' = length text /\ goods 0 l'.
  Proof.
    induction n as [|n IH]; intros j g group spans l inside EN B NG HD LS K W EM LL GD; cbn [seq map html_loop].
    - destruct (span_ok g (j - 1) group inside NG HD LS ltac:(lia)) as (span & tag & ES & RS & TS). rewrite ES. cbn [bind].
      assert (WG : within (c_anno (state g)) inside) by (rewrite <- (proj2 (K (j - 1) ltac:(lia))); exact W).
      eexists. eexists. split; [reflexivity|]. split.
      + unfold read_page. rewrite (EM (span ++ close_opt (c_anno (state (j - 1))))). rewrite RS. rewrite <- (app_nil_r (close_opt _)), (close_ok _ _ [] W). cbn [page option_map]. rewrite app_nil_r. reflexivity.
      + rewrite app_length, map_length, cut_length by lia. split; [lia|]. apply goods_app; [exact GD|]. rewrite LL. apply group_good; [lia| |exact TS|exact WG]. intros i Hi. apply K. lia.
    - assert (WG : within (c_anno (state g)) inside) by (rewrite <- (proj2 (K (j - 1) ltac:(lia))); exact W).
      assert (REC : forall spans' l' inside', within (c_anno (state j)) inside' -> emits spans' l' inside' -> length l' = j -> goods 0 l' -> forall group', group' <> [] -> hd_error group' = Some (state j) -> (exists x, List.last group' x = state j) ->
         exists h l', html_loop text toks annos group' (c_anno (state j)) spans' (map state (seq (S j) n)) = Ok h /\ read_page h = Some l' /\ length l' = length text /\ goods 0 l').
      { intros spans' l' inside' W' EM' LL' GD' group' N1 N2 N3. specialize (IH (S j) j group' spans' l' inside'). replace (S j - 1) with j in IH by lia. apply IH; auto; try lia. intros i Hi. replace i with j by lia. auto. }
      destruct (span_ok g (j - 1) group inside NG HD LS ltac:(lia)) as (span & tag & ES & RS & TS).
      assert (GG : goods g (map (fun c => (c, tag :: inside)) (cut text g (j - 1 + 1)))) by (apply group_good; [lia| |exact TS|exact WG]; intros i Hi; apply K; lia).
      assert (LC : length (cut text g (j - 1 + 1)) = j - g) by (rewrite cut_length; lia).
      destruct (opt_eqb (c_anno (state j)) (c_anno (state (j - 1)))) eqn:EA.
      + apply opt_eqb_eq in EA. cbn [bind fst snd]. destruct group as [|first group]; [congruence|]. cbn [hd_error] in HD. injection HD as ->.
        destruct (same_key (state j) (state g)) eqn:EK.
        * apply same_key_eq in EK. specialize (IH (S j) g ((state g :: group) ++ [state j]) spans l inside). replace (S j - 1) with j in IH by lia. apply IH; auto; try lia.
          -- destruct group; discriminate.
          -- exists (state j). apply last_app_one.
          -- intros i Hi. destruct (Nat.eq_dec i j) as [->|D]; [exact EK|]. apply K. lia.
          -- rewrite EA. exact W.
        * rewrite ES. cbn [bind]. apply (REC (spans ++ span) (l ++ map (fun c => (c, tag :: inside)) (cut text g (j - 1 + 1))) inside); try discriminate; try reflexivity.
          -- rewrite EA. exact W.
          -- intros r. rewrite <- app_assoc, (EM (span ++ r)), RS. destruct (page MText inside r); cbn [option_map]; rewrite <- ?app_assoc; reflexivity.
          -- rewrite app_length, map_length. lia.
          -- apply goods_app; [exact GD|]. rewrite LL. exact GG.
          -- exists (state j). reflexivity.
      + rewrite ES. cbn [bind]. destruct (open_ok j) as (op & inside' & EO & WO & RO). rewrite EO. cbn [bind fst snd].
        replace (same_key (state j) (state j)) with true by (symmetry; apply same_key_eq; auto).
        apply (REC (spans ++ span ++ close_opt (c_anno (state (j - 1))) ++ op) (l ++ map (fun c => (c, tag :: inside)) (cut text g (j - 1 + 1))) inside'); try discriminate; try reflexivity.
        -- exact WO.
        -- intros r. rewrite <- !app_assoc, (EM (span ++ close_opt (c_anno (state (j - 1))) ++ op ++ r)), RS, (close_ok _ _ _ W), RO. destruct (page MText inside' r); cbn [option_map]; rewrite <- ?app_assoc; reflexivity.
        -- rewrite app_length, map_length. lia.
        -- apply goods_app; [exact GD|]. rewrite LL. exact GG.
        -- exists (state j). reflexivity.
  Qed.

  Lemma html_ok : text <> [] -> tokens_fit text toks -> annos_fit text annos ->
    exists h l, make_html text toks annos = Ok h /\ read_page h = Some l /\ length l = length text /\ goods 0 l.
  Proof.
    intros NT F1 F2. unfold make_html. rewrite states_ok by assumption. cbn [bind]. assert (L : 0 < length text) by (destruct text; [congruence|cbn; lia]).
    assert (E : map (state_at toks annos) (seq 0 (length text)) = state_at toks annos 0 :: map (state_at toks annos) (seq 1 (length text - 1))) by (destruct (length text) as [|n]; [lia|]; cbn [seq map Nat.sub]; rewrite Nat.sub_0_r; reflexivity).
    rewrite E.
    destruct (open_ok 0) as (op & inside & EO & WO & RO). rewrite EO. cbn [bind].
    apply (loop_ok (length text - 1) 1 0 [state 0] op [] inside); auto; try lia; try discriminate.
    - exists (state 0). reflexivity.
    - intros i Hi. replace i with 0 by lia. auto.
    - intros r. rewrite RO. destruct (page MText inside r); reflexivity.
    - intros k x H. destruct k; discriminate.
  Qed.
End page_ok.

(** ** Colours *)
Lemma str_compare_trans : forall a b c, str_compare a b = Lt -> str_compare b c = Lt -> str_compare a c = Lt.
Proof.
  induction a as [|x a IH]; intros [|y b] [|z c]; cbn; intros H1 H2; try discriminate; try reflexivity.
  destruct (N.compare_spec x y) as [->|L1|L1]; try discriminate; destruct (N.compare_spec y z) as [->|L2|L2]; try discriminate.
  - eapply IH; eauto.
  - reflexivity.
  - replace (N.compare x z) with Lt by (symmetry; apply N.compare_lt_iff; exact L1). reflexivity.
  - replace (N.compare x z) with Lt by (symmetry; apply N.compare_lt_iff; lia). reflexivity.
Qed.
Lemma str_compare_opp : forall a b, str_compare a b = Gt -> str_compare b a = Lt.
Proof. induction a as [|x a IH]; intros [|y b]; cbn; intros H; try discriminate; try reflexivity. rewrite N.compare_antisym. destruct (N.compare x y); cbn; [auto|discriminate|reflexivity]. Qed.

Inductive rising : list str -> Prop :=
| ri_nil : rising []
| ri_cons x l : Forall (fun y => str_compare x y = Lt) l -> rising l -> rising (x :: l).
Lemma insert_rising x l : rising l -> rising (insert_label x l).
Proof.
  induction 1 as [|y l F R IH]; cbn [insert_label]; [repeat constructor|]. destruct (str_compare x y) eqn:E.
  - constructor; assumption.
  - constructor; [|constructor; assumption]. constructor; [exact E|]. eapply Forall_impl; [|exact F]. intros z. apply str_compare_trans. exact E.
  - constructor; [|exact IH]. apply Forall_forall. intros z I. apply insert_in in I. destruct I as [->|I]; [apply str_compare_opp; exact E|]. rewrite Forall_forall in F. auto.
Qed.
Lemma labels_rising annos : rising (sorted_labels annos).
Proof. unfold sorted_labels. induction (map a_label annos) as [|x l IH]; [constructor|]. cbn [fold_right]. apply insert_rising. exact IH. Qed.
Lemma rising_nodup l : rising l -> NoDup l.
Proof.
  induction 1 as [|x l F _ IH]; [constructor|]. constructor; [|exact IH]. intros I. rewrite Forall_forall in F. specialize (F x I). assert (X : str_compare x x = Eq) by (apply str_compare_eq; reflexivity). congruence.
Qed.
Lemma rank_nth x : forall l k, rank x l = Some k -> nth_error l k = Some x.
Proof.
  induction l as [|y l IH]; intros k H; [discriminate|]. cbn [rank] in H. destruct (str_eqb x y) eqn:E; [apply str_eqb_eq in E; injection H as <-; subst y; reflexivity|].
  destruct (rank x l) as [k'|] eqn:R; [|discriminate]. injection H as <-. cbn. auto.
Qed.
