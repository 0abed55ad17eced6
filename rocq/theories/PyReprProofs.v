(** Proofs about [repr] and [str] (C93). *)
From Coq Require Import ZArith String DecimalString.
From Verif Require Import Base ListFacts StrBytes VisualModel PyReprModel PyReprSpec.

Lemma value_ind' (P : value -> Prop) :
  (forall b, P (VBool b)) -> (forall z, P (VInt z)) -> (forall t, P (VFloat t)) -> (forall t, P (VStr t)) -> P VNone -> (forall n, P (VUnit n)) ->
  (forall n v, P v -> P (VNew n v)) -> (forall l, Forall P l -> P (VSeq l)) -> (forall l, Forall P l -> P (VTuple l)) -> (forall n l, Forall P l -> P (VTupleVariant n l)) ->
  (forall l, Forall (fun kx => P (fst kx) /\ P (snd kx)) l -> P (VMap l)) -> (forall n l, Forall (fun kx => P (snd kx)) l -> P (VStruct n l)) ->
  (forall n l, Forall (fun kx => P (snd kx)) l -> P (VStructVariant n l)) -> forall v, P v.
Proof.
  intros H1 H2 H3 H4 H5 H6 H7 H8 H9 H10 H11 H12 H13. fix IH 1. intros [b|z|t|t| |n|n v|l|l|n l|l|n l|n l].
  - apply H1. - apply H2. - apply H3. - apply H4. - apply H5. - apply H6. - apply H7, IH.
  - apply H8. induction l; constructor; [apply IH|assumption].
  - apply H9. induction l; constructor; [apply IH|assumption].
  - apply H10. induction l; constructor; [apply IH|assumption].
  - apply H11. induction l as [|[k x] l IHl]; constructor; [split; apply IH|assumption].
  - apply H12. induction l as [|[k x] l IHl]; constructor; [apply IH|assumption].
  - apply H13. induction l as [|[k x] l IHl]; constructor; [apply IH|assumption].
Qed.

(** The loops. *)
Fixpoint run_all (fs : list (ser -> res unit ser)) (s : ser) : res unit ser := match fs with [] => Ok s | f :: fs' => let! s := f s in run_all fs' s end.

Lemma last_app {A} (a : list A) c : exists l, rev (a ++ [c]) = c :: l.
Proof. rewrite rev_app_distr. cbn. eauto. Qed.
Definition ends (s : str) (c : char) : Prop := exists p, s = p ++ [c].
Definition ends_well (x : str) : Prop := exists c, ends x c /\ c <> 40%N /\ c <> 91%N /\ c <> 123%N.
Lemma ends_app a x c : ends x c -> ends (a ++ x) c.
Proof. intros (p & ->). exists (a ++ p). rewrite app_assoc. reflexivity. Qed.
Lemma ends_with_spec c s d : ends (s_out s) d -> ends_with c s = N.eqb c d.
Proof. intros (p & E). unfold ends_with. rewrite E. destruct (last_app p d) as (l & ->). reflexivity. Qed.
Lemma well_app a x : ends_well x -> ends_well (a ++ x).
Proof. intros (c & E & H). exists c. split; [apply ends_app; exact E|exact H]. Qed.

Lemma digits_chars : forall d, Forall word_char (lit (NilEmpty.string_of_uint d)).
Proof. induction d; cbn; constructor; try exact IHd; unfold word_char; cbn; lia. Qed.
Lemma decimal_word n : word (decimal n).
Proof.
  unfold decimal, NilZero.string_of_uint. destruct (N.to_uint n) eqn:E; (split; [discriminate|]); try (rewrite <- E; apply digits_chars). constructor; [unfold word_char; cbn; lia|constructor].
Qed.
Lemma int_word z : word (int_text z).
Proof.
  unfold int_text. destruct (z <? 0)%Z; [|apply decimal_word]. destruct (decimal_word (Z.abs_N z)) as [_ F]. split; [discriminate|]. cbn. constructor; [unfold word_char; lia|exact F].
Qed.
Lemma constants : word (lit "True") /\ word (lit "False") /\ word (lit "None").
Proof.
  split; [|split]; (split; [discriminate|]); cbn; repeat (apply Forall_cons; [unfold word_char; lia|]); apply Forall_nil.
Qed.

Section printing.
Context (L : limits) (L2 : 2 <= l_elements L).

Definition keeps (s s' : ser) : Prop :=
  s_level s' = s_level s /\ length (s_nums s') = length (s_nums s) /\ forall i, i <= s_level s -> nth_error (s_nums s') i = nth_error (s_nums s) i.
Definition room (s : ser) (d : nat) : Prop := length (s_nums s) = l_depth L /\ s_level s + d < l_depth L.
Definition writes (f : ser -> res unit ser) (d : nat) (o : option str) : Prop := forall s, room s d ->
  match o with Some x => exists s', f s = Ok s' /\ s_out s' = s_out s ++ x /\ keeps s s' | None => f s = Panic end.
(** As [keeps], but the counter of the level is [n]. *)
Definition counts (n : nat) (s s' : ser) : Prop :=
  s_level s' = s_level s /\ length (s_nums s') = length (s_nums s) /\ (forall i, i < s_level s -> nth_error (s_nums s') i = nth_error (s_nums s) i) /\ nth_error (s_nums s') (s_level s) = Some n.

Lemma keeps_refl s : keeps s s. Proof. repeat split. Qed.
Lemma keeps_trans a b c : keeps a b -> keeps b c -> keeps a c.
Proof. intros (A1 & A2 & A3) (B1 & B2 & B3). split; [congruence|]. split; [congruence|]. intros i Hi. rewrite B3 by lia. auto. Qed.
Lemma keeps_room s s' d : keeps s s' -> room s d -> room s' d.
Proof. intros (A & B & _) [R1 R2]. unfold room. rewrite A, B. auto. Qed.
Lemma counts_keeps n s s' s'' : counts n s s' -> keeps s' s'' -> counts n s s''.
Proof. intros (A1 & A2 & A3 & A4) (B1 & B2 & B3). split; [congruence|]. split; [congruence|]. split; [intros i Hi; rewrite B3 by lia; auto|]. rewrite B3 by lia. exact A4. Qed.
Lemma counts_room n s s' d : counts n s s' -> room s d -> room s' d.
Proof. intros (A & B & _) [R1 R2]. unfold room. rewrite A, B. auto. Qed.
Lemma counts_trans n m s s' s'' : counts n s s' -> counts m s' s'' -> counts m s s''.
Proof. intros (A1 & A2 & A3 & A4) (B1 & B2 & B3 & B4). split; [congruence|]. split; [congruence|]. split; [intros i Hi; rewrite B3 by lia; auto|]. rewrite <- A1. exact B4. Qed.

Lemma set_num_ok n s d : room s d -> exists s', set_num n s = Ok s' /\ s_out s' = s_out s /\ counts n s s'.
Proof.
  intros [R1 R2]. unfold set_num. replace (s_level s <? length (s_nums s)) with true by (symmetry; apply Nat.ltb_lt; lia). eexists. split; [reflexivity|]. split; [reflexivity|].
  unfold counts. cbn [s_level s_nums]. set (l := s_level s) in *. assert (Hl : length (firstn l (s_nums s)) = l) by (rewrite firstn_length; lia).
  split; [reflexivity|]. split; [|split].
  - rewrite app_length. cbn [length]. rewrite skipn_length, Hl. lia.
  - intros i Hi. rewrite nth_error_app1 by lia. rewrite nth_error_firstn. destruct (i <? l) eqn:E; [reflexivity|lia].
  - rewrite nth_error_app2 by lia. rewrite Hl, Nat.sub_diag. reflexivity.
Qed.
Lemma get_num_ok s n : nth_error (s_nums s) (s_level s) = Some n -> get_num s = Ok n.
Proof. intros E. unfold get_num. rewrite E. reflexivity. Qed.

(** ** A step of a counted loop *)
Definition sep (c : char) (s : ser) : str := if ends_with c s then [] else lit ", ".
Definition counted (c : char) (f : ser -> res unit ser) (d : nat) (o : option str) : Prop := forall s n, room s d -> nth_error (s_nums s) (s_level s) = Some n ->
  if n + 1 <? l_elements L
  then match o with Some x => exists s', f s = Ok s' /\ s_out s' = s_out s ++ sep c s ++ x /\ counts (n + 1) s s' | None => f s = Panic end
  else exists s', f s = Ok s' /\ s_out s' = s_out s ++ (if n + 1 =? l_elements L then lit ", ..." else []) /\ counts (n + 1) s s'.

Lemma element_counted c f d o : writes f d o -> counted c (element L c f) d o.
Proof.
  intros W s n R E. unfold element. rewrite (get_num_ok _ _ E). cbn [bind]. destruct (set_num_ok (n + 1) s d R) as (s1 & -> & O1 & C1). cbn [bind].
  assert (SE : ends_with c s1 = ends_with c s) by (unfold ends_with; rewrite O1; reflexivity). pose proof (counts_room _ _ _ _ C1 R) as R1.
  destruct (n + 1 <? l_elements L) eqn:LT.
  - unfold sep. rewrite SE. set (s2 := if ends_with c s then s1 else put (lit ", ") s1).
    assert (K2 : keeps s1 s2 /\ s_out s2 = s_out s ++ (if ends_with c s then [] else lit ", ")).
    { unfold s2. destruct (ends_with c s); split; [apply keeps_refl|rewrite app_nil_r; exact O1|repeat split|cbn [put s_out]; rewrite O1; reflexivity]. }
    destruct K2 as [K2 O2]. specialize (W s2 (keeps_room _ _ _ K2 R1)). destruct o as [x|]; [|exact W]. destruct W as (s3 & E3 & O3 & K3). exists s3. split; [exact E3|]. split; [rewrite O3, O2, <- app_assoc; reflexivity|].
    eapply counts_keeps; [|exact K3]. eapply counts_keeps; eauto.
  - eexists. split; [reflexivity|]. destruct (n + 1 =? l_elements L).
    + split; [cbn [put s_out]; rewrite O1; reflexivity|]. exact C1.
    + split; [rewrite O1, app_nil_r; reflexivity|exact C1].
Qed.
Lemma entry_counted f g d x y : writes f d x -> writes g d y -> counted 123 (fun s => let! s := element L 123 f s in map_value L g s) d (both (fun a b => a ++ lit ":" ++ b) x y).
Proof.
  intros Wf Wg s n R E. pose proof (element_counted 123 f d x Wf s n R E) as H. destruct (n + 1 <? l_elements L) eqn:LT.
  - destruct x as [x|]; cbn [both]; [|rewrite H; reflexivity]. destruct H as (s1 & E1 & O1 & C1). rewrite E1. cbn [bind]. unfold map_value.
    assert (N1 : nth_error (s_nums s1) (s_level s1) = Some (n + 1)) by (destruct C1 as (A & _ & _ & B); rewrite A; exact B). rewrite (get_num_ok _ _ N1). cbn [bind]. rewrite LT.
    specialize (Wg (put (lit ":") s1) (counts_room _ _ _ _ C1 R)). destruct y as [y|]; [|exact Wg]. destruct Wg as (s2 & E2 & O2 & K2). exists s2. split; [exact E2|]. split.
    + rewrite O2. cbn [put s_out]. rewrite O1, <- !app_assoc. reflexivity.
    + eapply counts_keeps; [exact C1|exact K2].
  - destruct H as (s1 & E1 & O1 & C1). rewrite E1. cbn [bind]. unfold map_value.
    assert (N1 : nth_error (s_nums s1) (s_level s1) = Some (n + 1)) by (destruct C1 as (A & _ & _ & B); rewrite A; exact B). rewrite (get_num_ok _ _ N1). cbn [bind]. rewrite LT. eauto.
Qed.

(** ** Loops *)
Fixpoint rest (n : nat) (os : list (option str)) : option str :=
  match os with
  | [] => Some []
  | o :: os' => if n + 1 <? l_elements L then both (fun x r => (if n =? 0 then [] else lit ", ") ++ x ++ r) o (rest (n + 1) os')
                else Some (if n + 1 =? l_elements L then lit ", ..." else [])
  end.
Lemma loop_counted c d : c = 40%N \/ c = 91%N \/ c = 123%N -> forall os fs, Forall2 (fun f o => counted c f d o /\ forall x, o = Some x -> ends_well x) fs os ->
  forall s n, room s d -> nth_error (s_nums s) (s_level s) = Some n -> (exists e, ends (s_out s) e /\ (n = 0 -> e = c) /\ (0 < n < l_elements L -> e <> 40%N /\ e <> 91%N /\ e <> 123%N)) ->
  match rest n os with Some x => exists s' m, run_all fs s = Ok s' /\ s_out s' = s_out s ++ x /\ counts m s s' | None => run_all fs s = Panic end.
Proof.
  intros Hc os fs F. induction F as [|f o fs os [C W] F IH]; intros s n R E EN; cbn [rest run_all].
  - exists s, n. split; [reflexivity|]. split; [rewrite app_nil_r; reflexivity|]. repeat split; auto.
  - specialize (C s n R E). destruct (n + 1 <? l_elements L) eqn:LT.
    + assert (SP : sep c s = if n =? 0 then [] else lit ", ").
      { unfold sep. destruct EN as (e & EE & E0 & E1). rewrite (ends_with_spec c s e EE). destruct (Nat.eqb_spec n 0) as [->|Hn]; [rewrite E0, N.eqb_refl by reflexivity; reflexivity|].
        destruct (N.eqb_spec c e) as [<-|]; [|reflexivity]. assert (B : 0 < n < l_elements L) by (apply Nat.ltb_lt in LT; lia). specialize (E1 B). intuition congruence. }
      destruct o as [x|]; cbn [both]; [|rewrite C; reflexivity]. destruct C as (s1 & E1 & O1 & C1). rewrite E1. cbn [bind]. rewrite SP in O1.
      assert (N1 : nth_error (s_nums s1) (s_level s1) = Some (n + 1)) by (destruct C1 as (A & _ & _ & B); rewrite A; exact B).
      specialize (IH s1 (n + 1) (counts_room _ _ _ _ C1 R) N1). destruct (rest (n + 1) os) as [r|].
      * destruct IH as (s2 & m & E2 & O2 & C2).
        { destruct (W x eq_refl) as (e & EE & HE). exists e. split; [rewrite O1; apply ends_app, ends_app; exact EE|]. split; [lia|auto]. }
        exists s2, m. split; [exact E2|]. split; [rewrite O2, O1, <- !app_assoc; reflexivity|]. eapply counts_trans; eauto.
      * apply IH. destruct (W x eq_refl) as (e & EE & HE). exists e. split; [rewrite O1; apply ends_app, ends_app; exact EE|]. split; [lia|auto].
    + destruct C as (s1 & E1 & O1 & C1). rewrite E1. cbn [bind]. apply Nat.ltb_ge in LT.
      assert (N1 : nth_error (s_nums s1) (s_level s1) = Some (n + 1)) by (destruct C1 as (A & _ & _ & B); rewrite A; exact B).
      assert (RN : rest (n + 1) os = Some []).
      { destruct os as [|o' os]; [reflexivity|]. cbn [rest]. replace (n + 1 + 1 <? l_elements L) with false by (symmetry; apply Nat.ltb_ge; lia). replace (n + 1 + 1 =? l_elements L) with false by (symmetry; apply Nat.eqb_neq; lia). reflexivity. }
      specialize (IH s1 (n + 1) (counts_room _ _ _ _ C1 R) N1). rewrite RN in IH. destruct IH as (s2 & m & E2 & O2 & C2).
      { destruct EN as (e & EE & E0 & E1'). destruct (n + 1 =? l_elements L).
        - exists 46%N. split; [rewrite O1; apply ends_app; exists (lit ", .."); reflexivity|]. split; [lia|intros _; repeat split; discriminate].
        - exists e. rewrite app_nil_r in O1. rewrite O1. split; [exact EE|]. split; lia. }
      exists s2, m. split; [exact E2|]. split; [rewrite O2, O1, <- !app_assoc, app_nil_r; reflexivity|]. eapply counts_trans; eauto.
Qed.

Lemma commas_cons (x : str) l : commas (x :: l) = x ++ match l with [] => [] | _ => lit ", " ++ commas l end.
Proof. destruct l; cbn [commas]; [rewrite app_nil_r|]; reflexivity. Qed.
Lemma rest_some : forall (os : list (option expr)) n, n < l_elements L ->
  rest n (map (option_map text_of) os) = option_map (fun es => (if n =? 0 then [] else match es with [] => [] | _ => lit ", " end) ++ commas (map text_of es)) (all_some (some_of (l_elements L - n) (Some EDots) os)).
Proof.
  induction os as [|o os IH]; intros n Hn; cbn [map rest].
  - unfold some_of. cbn [length]. replace (0 <? l_elements L - n) with true by (symmetry; apply Nat.ltb_lt; lia). cbn. destruct (n =? 0); reflexivity.
  - destruct (n + 1 <? l_elements L) eqn:LT.
    + apply Nat.ltb_lt in LT. rewrite IH by exact LT.
      assert (SO : some_of (l_elements L - n) (Some EDots) (o :: os) = o :: some_of (l_elements L - (n + 1)) (Some EDots) os).
      { unfold some_of. cbn [length]. replace (S (length os) <? l_elements L - n) with (length os <? l_elements L - (n + 1)) by lia. destruct (length os <? l_elements L - (n + 1)); [reflexivity|].
        replace (l_elements L - n - 1) with (S (l_elements L - (n + 1) - 1)) by lia. reflexivity. }
      rewrite SO. cbn [all_some]. destruct o as [e|]; cbn [option_map both]; [|reflexivity]. destruct (all_some _) as [es|]; cbn [option_map both]; [|reflexivity]. f_equal. cbn [map]. rewrite commas_cons.
      replace (n + 1 =? 0) with false by (symmetry; apply Nat.eqb_neq; lia). destruct es; cbn [map app commas]; rewrite ?app_nil_r; reflexivity.
    + apply Nat.ltb_ge in LT. assert (n + 1 = l_elements L) as EN by lia. rewrite (proj2 (Nat.eqb_eq _ _) EN). replace (n =? 0) with false by (symmetry; apply Nat.eqb_neq; lia).
      unfold some_of. replace (length (o :: os) <? l_elements L - n) with false by (symmetry; apply Nat.ltb_ge; cbn [length]; lia). replace (l_elements L - n - 1) with 0 by lia. reflexivity.
Qed.

(** ** Groups *)
Lemma writes_more f d d' o : d <= d' -> writes f d o -> writes f d' o.
Proof. intros H W s [R1 R2]. apply W. split; [exact R1|lia]. Qed.
Lemma counted_more c f d d' o : d <= d' -> counted c f d o -> counted c f d' o.
Proof. intros H W s n [R1 R2]. apply W. split; [exact R1|lia]. Qed.
Definition in_group (pre post : str) (f : ser -> res unit ser) (s : ser) : res unit ser :=
  let! s := open_group L pre s in let! s := f s in close_group post s.
Lemma group_writes pre c post f d o : ends pre c ->
  (forall s, room s d -> nth_error (s_nums s) (s_level s) = Some 0 -> ends (s_out s) c ->
     match o with Some x => exists s' m, f s = Ok s' /\ s_out s' = s_out s ++ x /\ counts m s s' | None => f s = Panic end) ->
  writes (in_group pre post f) (S d) (option_map (fun x => pre ++ x ++ post) o).
Proof.
  intros EP H s R. unfold in_group, open_group. replace (Nat.min (l_depth L - 1) (s_level s + 1)) with (s_level s + 1) by (destruct R; lia).
  set (s0 := mkSer (s_out s ++ pre) (s_nums s) (s_level s + 1)). assert (R0 : room s0 d) by (destruct R as [R1 R2]; split; [exact R1|cbn [s0 s_level]; lia]).
  destruct (set_num_ok 0 s0 d R0) as (s1 & -> & O1 & C1). cbn [bind]. pose proof (counts_room _ _ _ _ C1 R0) as R1.
  assert (N1 : nth_error (s_nums s1) (s_level s1) = Some 0) by (destruct C1 as (A & _ & _ & B); rewrite A; exact B).
  assert (E1 : ends (s_out s1) c) by (rewrite O1; apply ends_app; exact EP). specialize (H s1 R1 N1 E1). destruct o as [x|]; cbn [option_map]; [|rewrite H; reflexivity].
  destruct H as (s2 & m & E2 & O2 & C2). rewrite E2. cbn [bind]. unfold close_group. destruct (set_num_ok 0 s2 d (counts_room _ _ _ _ C2 R1)) as (s3 & -> & O3 & C3). cbn [bind].
  eexists. split; [reflexivity|]. cbn [s_out s_level s_nums]. split; [rewrite O3, O2, O1; cbn [s0 s_out]; rewrite <- !app_assoc; reflexivity|].
  pose proof (counts_trans _ _ _ _ _ C1 C2) as C12. pose proof (counts_trans _ _ _ _ _ C12 C3) as (A1 & A2 & A3 & _). cbn [s0 s_level s_nums] in A1, A2, A3.
  unfold keeps. cbn [s_level s_nums]. split; [lia|]. split; [exact A2|]. intros i Hi. apply A3. lia.
Qed.
Lemma counted_group pre c post d os fs : c = 40%N \/ c = 91%N \/ c = 123%N -> ends pre c ->
  Forall2 (fun f o => counted c f d (option_map text_of o) /\ forall e, o = Some e -> ends_well (text_of e)) fs os ->
  writes (in_group pre post (run_all fs)) (S d) (option_map (fun es => pre ++ commas (map text_of es) ++ post) (all_some (some_of (l_elements L) (Some EDots) os))).
Proof.
  intros Hc EP F. assert (F' : Forall2 (fun f o => counted c f d o /\ forall x, o = Some x -> ends_well x) fs (map (option_map text_of) os)).
  { clear -F. induction F as [|f o fs os [C W] _ IH]; constructor; [|exact IH]. split; [exact C|]. intros x E. destruct o as [e|]; [|discriminate]. injection E as <-. auto. }
  pose proof (rest_some os 0 ltac:(lia)) as RS. rewrite Nat.sub_0_r in RS. cbn [Nat.eqb app] in RS.
  replace (option_map (fun es => pre ++ commas (map text_of es) ++ post) (all_some (some_of (l_elements L) (Some EDots) os)))
    with (option_map (fun x => pre ++ x ++ post) (rest 0 (map (option_map text_of) os))) by (rewrite RS; destruct (all_some _); reflexivity).
  apply (group_writes pre c); [exact EP|]. intros s R N E. apply (loop_counted c d Hc _ _ F' s 0 R N). exists c. split; [exact E|]. split; [auto|lia].
Qed.

(** ** Fields *)
Lemma field_writes (skip : bool) k f d o : (skip = true -> k <> lit "type") -> writes f d o -> forall s, room s d ->
  match o with Some x => exists s', field skip k f s = Ok s' /\ s_out s' = s_out s ++ sep 40 s ++ k ++ lit "=" ++ x /\ keeps s s' | None => field skip k f s = Panic end.
Proof.
  intros NT W s R. unfold field. replace (skip && str_eqb k (lit "type")) with false
    by (symmetry; destruct skip; [|reflexivity]; cbn [andb]; destruct (str_eqb k (lit "type")) eqn:E; [apply str_eqb_eq in E; destruct (NT eq_refl E)|reflexivity]).
  unfold sep. set (s1 := if ends_with 40 s then s else put (lit ", ") s). assert (K1 : keeps s s1) by (unfold s1; destruct (ends_with 40 s); repeat split).
  assert (O1 : s_out s1 = s_out s ++ (if ends_with 40 s then [] else lit ", ")) by (unfold s1; destruct (ends_with 40 s); [rewrite app_nil_r|]; reflexivity).
  specialize (W (put (k ++ lit "=") s1) (keeps_room _ _ _ K1 R)). destruct o as [x|]; [|exact W]. destruct W as (s2 & E2 & O2 & K2). exists s2. split; [exact E2|]. split.
  - rewrite O2. cbn [put s_out]. rewrite O1, <- !app_assoc. reflexivity.
  - exact (keeps_trans _ _ _ K1 K2).
Qed.
Lemma loop_fields (skip : bool) d : forall l os, Forall2 (fun kf o => (skip = true -> fst kf <> lit "type") /\ writes (snd kf) d (option_map text_of o) /\ forall e, o = Some e -> ends_well (text_of e)) l os ->
  forall s (first : bool), room s d -> (exists e, ends (s_out s) e /\ (if first then e = 40%N else e <> 40%N)) ->
  match all_some (map (fun ko => option_map (ENamed (fst ko)) (snd ko)) (combine (map fst l) os)) with
  | Some es => exists s', run_all (map (fun kf => field skip (fst kf) (snd kf)) l) s = Ok s' /\ s_out s' = s_out s ++ (if first then [] else match es with [] => [] | _ => lit ", " end) ++ commas (map text_of es) /\ keeps s s'
  | None => run_all (map (fun kf => field skip (fst kf) (snd kf)) l) s = Panic
  end.
Proof.
  intros l os F. induction F as [|[k f] o l os (NT & W & EW) F IH]; intros s first R E; cbn [map combine all_some fst snd run_all].
  - exists s. split; [reflexivity|]. split; [destruct first; cbn; rewrite app_nil_r; reflexivity|apply keeps_refl].
  - pose proof (field_writes skip k f d _ NT W s R) as H.
    assert (SP : sep 40 s = if first then [] else lit ", ").
    { unfold sep. destruct E as (e & EE & HE). rewrite (ends_with_spec 40 s e EE). destruct first; [subst e; reflexivity|]. destruct (N.eqb_spec 40 e); [congruence|reflexivity]. }
    destruct o as [x|]; cbn [option_map] in H |- *; [|rewrite H; reflexivity]. destruct H as (s1 & E1 & O1 & K1). rewrite E1. cbn [bind].
    assert (EN : exists e, ends (s_out s1) e /\ e <> 40%N).
    { destruct (EW x eq_refl) as (e & EE & HE & _). exists e. split; [rewrite O1; apply ends_app, ends_app, ends_app, ends_app; exact EE|exact HE]. }
    specialize (IH s1 false (keeps_room _ _ _ K1 R) EN). destruct (all_some _) as [es|]; cbn [option_map]; [|exact IH]. destruct IH as (s2 & E2 & O2 & K2). exists s2. split; [exact E2|]. split; [|exact (keeps_trans _ _ _ K1 K2)].
    rewrite O2, O1, SP. cbn [map]. rewrite commas_cons. cbn [text_of]. destruct es; cbn [map commas app]; rewrite <- ?app_assoc, ?app_nil_r; destruct first; reflexivity.
Qed.

(** ** Ends of texts *)
Lemma word_ends w : word w -> ends_well w.
Proof.
  intros [NE F]. destruct (exists_last NE) as (p & c & ->). exists c. split; [exists p; reflexivity|]. apply Forall_app in F. destruct F as [_ F]. inversion F as [|? ? H _]; subst. unfold word_char in H. repeat split; intros ->; lia.
Qed.
Lemma group_ends n b items e : group n b items = Some e -> ends_well (text_of e).
Proof.
  unfold group. destruct (all_some items) as [es|]; [|discriminate]. intros H. injection H as <-. cbn [text_of]. apply well_app, well_app, well_app. destruct b; eexists; (split; [exists []; reflexivity|repeat split; discriminate]).
Qed.
Lemma value_ends v e : plain_value v -> expr_of L v = Some e -> ends_well (text_of e).
Proof.
  pose proof constants as (K1 & K2 & K3). destruct v; cbn [plain_value expr_of]; intros P H; try exact (group_ends _ _ _ _ H); try (injection H as <-; cbn [text_of]; apply word_ends; (assumption || apply int_word || (destruct b; assumption))).
  destruct (shown_text (l_string L) s) as [t|]; [|discriminate]. injection H as <-. cbn [text_of]. apply well_app, well_app. exists 34%N. split; [exists []; reflexivity|repeat split; discriminate].
Qed.

(** ** Everything *)
Lemma parts_self v : In v (parts v). Proof. destruct v; left; reflexivity. Qed.
Lemma plain_self v : plain_names v -> plain_value v.
Proof. intros P. unfold plain_names in P. rewrite Forall_forall in P. apply P, parts_self. Qed.
Lemma max_in {A} (f : A -> nat) x l : In x l -> f x <= list_max (map f l).
Proof. intros I. assert (H : Forall (fun k => k <= list_max (map f l)) (map f l)) by (apply list_max_le; lia). rewrite Forall_forall in H. apply H, in_map, I. Qed.
Lemma elements_counted c l : Forall (fun v => plain_names v -> writes (serialize L v) (depth v) (option_map text_of (expr_of L v))) l -> Forall plain_names l ->
  Forall2 (fun f o => counted c f (list_max (map depth l)) (option_map text_of o) /\ forall e, o = Some e -> ends_well (text_of e)) (map (fun x => element L c (serialize L x)) l) (map (expr_of L) l).
Proof.
  intros F P. rewrite Forall_forall in F, P. assert (G : forall l', incl l' l -> Forall2 (fun f o => counted c f (list_max (map depth l)) (option_map text_of o) /\ forall e, o = Some e -> ends_well (text_of e)) (map (fun x => element L c (serialize L x)) l') (map (expr_of L) l')).
  { induction l' as [|x l' IH]; intros I; cbn [map]; constructor; [|apply IH; intros y Y; apply I; right; exact Y]. assert (Ix : In x l) by (apply I; left; reflexivity). split.
    - apply element_counted, (writes_more _ (depth x)); [apply max_in; exact Ix|]. apply F; [exact Ix|apply P; exact Ix].
    - intros e. apply value_ends. apply plain_self, P, Ix. }
  apply G. intros x I. exact I.
Qed.
Lemma loop_elements c : forall l s, (fix loop l s := match l with [] => Ok s | x :: l' => let! s := element L c (serialize L x) s in loop l' s end) l s = run_all (map (fun x => element L c (serialize L x)) l) s.
Proof. induction l as [|x l IH]; intros s; cbn [map run_all]; [reflexivity|]. destruct (element L c (serialize L x) s); cbn [bind]; [apply IH|reflexivity|reflexivity]. Qed.
Lemma loop_entries : forall l s, (fix loop (l : list (value * value)) s := match l with [] => Ok s | (k, x) :: l' => let! s := element L 123 (serialize L k) s in let! s := map_value L (serialize L x) s in loop l' s end) l s
  = run_all (map (fun kx => fun s => let! s := element L 123 (serialize L (fst kx)) s in map_value L (serialize L (snd kx)) s) l) s.
Proof.
  induction l as [|[k x] l IH]; intros s; cbn [map run_all fst snd]; [reflexivity|]. destruct (element L 123 (serialize L k) s) as [s1| |]; cbn [bind]; [|reflexivity|reflexivity]. destruct (map_value L (serialize L x) s1); cbn [bind]; [apply IH|reflexivity|reflexivity].
Qed.
Lemma loop_named skip : forall l s, (fix loop (l : list (str * value)) s := match l with [] => Ok s | (k, x) :: l' => let! s := field skip k (serialize L x) s in loop l' s end) l s
  = run_all (map (fun kf => field skip (fst kf) (snd kf)) (map (fun kx => (fst kx, serialize L (snd kx))) l)) s.
Proof. induction l as [|[k x] l IH]; intros s; cbn [map run_all fst snd]; [reflexivity|]. destruct (field skip k (serialize L x) s); cbn [bind]; [apply IH|reflexivity|reflexivity]. Qed.
Lemma writes_ext f g d o : (forall s, f s = g s) -> writes g d o -> writes f d o.
Proof. intros E W s R. rewrite E. exact (W s R). Qed.

Lemma atom_writes x d : writes (fun s => Ok (put x s)) d (Some x).
Proof. intros s _. eexists. split; [reflexivity|]. split; [reflexivity|]. repeat split. Qed.
Lemma plain_flat {A} (f : A -> list value) l : Forall plain_value (flat_map f l) -> Forall (fun x => Forall plain_value (f x)) l.
Proof. induction l as [|x l IH]; cbn [flat_map]; intros H; constructor; apply Forall_app in H; [apply H|apply IH, H]. Qed.

Lemma fields_ok (skip : bool) l : Forall (fun kx => plain_names (snd kx) -> writes (serialize L (snd kx)) (depth (snd kx)) (option_map text_of (expr_of L (snd kx)))) l -> Forall (fun kx => plain_names (snd kx)) l ->
  (skip = true -> Forall (fun kx => fst kx <> lit "type") l) ->
  forall d s, list_max (map (fun kx => depth (snd kx)) l) <= d -> room s d -> ends (s_out s) 40%N ->
  match all_some (map (fun kx => option_map (ENamed (fst kx)) (expr_of L (snd kx))) l) with
  | Some es => exists s', run_all (map (fun kf => field skip (fst kf) (snd kf)) (map (fun kx => (fst kx, serialize L (snd kx))) l)) s = Ok s' /\ s_out s' = s_out s ++ commas (map text_of es) /\ keeps s s'
  | None => run_all (map (fun kf => field skip (fst kf) (snd kf)) (map (fun kx => (fst kx, serialize L (snd kx))) l)) s = Panic
  end.
Proof.
  intros F P NT d s LE R E.
  assert (G : Forall2 (fun kf o => (skip = true -> fst kf <> lit "type") /\ writes (snd kf) d (option_map text_of o) /\ forall e, o = Some e -> ends_well (text_of e))
    (map (fun kx => (fst kx, serialize L (snd kx))) l) (map (fun kx => expr_of L (snd kx)) l)).
  { clear R E s. induction l as [|[k x] l IH]; cbn [map]; constructor.
    - inversion F as [|? ? F1 F2]; subst. inversion P as [|? ? P1 P2]; subst. cbn [fst snd] in *. split; [intros S; specialize (NT S); inversion NT; assumption|]. split.
      + apply (writes_more _ (depth x)); [cbn [map list_max] in LE; cbn in LE; lia|]. auto.
      + intros e. apply value_ends, plain_self. exact P1.
    - inversion F; subst. inversion P; subst. apply IH; auto; [intros S; specialize (NT S); inversion NT; assumption|]. cbn in LE. unfold list_max. lia. }
  pose proof (loop_fields skip d _ _ G s true R) as H. rewrite !map_map in H. cbn [fst] in H.
  assert (C : combine (map fst l) (map (fun kx : str * value => expr_of L (snd kx)) l) = map (fun kx => (fst kx, expr_of L (snd kx))) l) by (clear; induction l as [|[k x] l IH]; [reflexivity|]; cbn; rewrite IH; reflexivity).
  change (map (fun x : str * value => fst x) l) with (map fst l) in H. rewrite C, map_map in H. cbn [fst snd] in H. rewrite map_map. cbn [fst snd]. apply H. exists 40%N. auto.
Qed.
Lemma elements_write pre c post l : c = 40%N \/ c = 91%N \/ c = 123%N -> ends pre c ->
  Forall (fun v => plain_names v -> writes (serialize L v) (depth v) (option_map text_of (expr_of L v))) l -> Forall plain_names l ->
  writes (in_group pre post (fun s => (fix loop l s := match l with [] => Ok s | x :: l' => let! s := element L c (serialize L x) s in loop l' s end) l s)) (S (list_max (map depth l)))
    (option_map (fun es => pre ++ commas (map text_of es) ++ post) (all_some (some_of (l_elements L) (Some EDots) (map (expr_of L) l)))).
Proof.
  intros Hc EP F P. eapply writes_ext; [|apply (counted_group pre c post _ _ _ Hc EP (elements_counted c l F P))]. intros s. unfold in_group. destruct (open_group L pre s) as [s1| |]; cbn [bind]; [|reflexivity|reflexivity]. rewrite loop_elements. reflexivity.
Qed.
Lemma fields_write pre post (skip : bool) l : ends pre 40%N ->
  Forall (fun kx => plain_names (snd kx) -> writes (serialize L (snd kx)) (depth (snd kx)) (option_map text_of (expr_of L (snd kx)))) l -> Forall (fun kx => plain_names (snd kx)) l ->
  (skip = true -> forall k x l', l = (k, x) :: l' -> Forall (fun kx => fst kx <> lit "type") l') ->
  writes (in_group pre post (fun s => (fix loop (l : list (str * value)) s := match l with [] => Ok s | (k, x) :: l' => let! s := field skip k (serialize L x) s in loop l' s end) l s)) (S (list_max (map (fun kx => depth (snd kx)) l)))
    (option_map (fun es => pre ++ commas (map text_of es) ++ post) (all_some (flat_map (fun kx => if skip && str_eqb (fst kx) (lit "type") then [] else [option_map (ENamed (fst kx)) (expr_of L (snd kx))]) l))).
Proof.
  intros EP F P NT. set (os := flat_map _ l).
  replace (option_map (fun es => pre ++ commas (map text_of es) ++ post) (all_some os)) with (option_map (fun x => pre ++ x ++ post) (option_map (fun es => commas (map text_of es)) (all_some os))) by (destruct (all_some os); reflexivity).
  apply (group_writes pre 40%N); [exact EP|]. intros s R N0 E. rewrite loop_named.
  assert (NoT : forall l', (skip = true -> Forall (fun kx => fst kx <> lit "type") l') -> flat_map (fun kx : str * value => if skip && str_eqb (fst kx) (lit "type") then [] else [option_map (ENamed (fst kx)) (expr_of L (snd kx))]) l' = map (fun kx => option_map (ENamed (fst kx)) (expr_of L (snd kx))) l').
  { induction l' as [|[k x] l' IH]; intros H; [reflexivity|]. cbn [flat_map map fst snd]. rewrite IH by (intros S; specialize (H S); inversion H; assumption). destruct skip; [|reflexivity]. specialize (H eq_refl). inversion H as [|? ? H1 H2]; subst. cbn [fst] in H1. cbn [andb]. destruct (str_eqb k (lit "type")) eqn:Q; [apply str_eqb_eq in Q; contradiction|reflexivity]. }
  assert (C0 : forall l', (skip = true -> Forall (fun kx => fst kx <> lit "type") l') ->
    Forall (fun kx => plain_names (snd kx) -> writes (serialize L (snd kx)) (depth (snd kx)) (option_map text_of (expr_of L (snd kx)))) l' -> Forall (fun kx => plain_names (snd kx)) l' ->
    list_max (map (fun kx => depth (snd kx)) l') <= list_max (map (fun kx => depth (snd kx)) l) ->
    match option_map (fun es => commas (map text_of es)) (all_some (map (fun kx => option_map (ENamed (fst kx)) (expr_of L (snd kx))) l')) with
    | Some x => exists s' m, run_all (map (fun kf => field skip (fst kf) (snd kf)) (map (fun kx => (fst kx, serialize L (snd kx))) l')) s = Ok s' /\ s_out s' = s_out s ++ x /\ counts m s s'
    | None => run_all (map (fun kf => field skip (fst kf) (snd kf)) (map (fun kx => (fst kx, serialize L (snd kx))) l')) s = Panic
    end).
  { intros l' NT' F' P' LE. pose proof (fields_ok skip l' F' P' NT' _ s LE R E) as H. destruct (all_some _) as [es|]; cbn [option_map]; [|exact H]. destruct H as (s' & E' & O' & K'). exists s', 0. split; [exact E'|]. split; [exact O'|]. destruct K' as (K1 & K2 & K3). repeat split; try assumption; [intros i Hi; apply K3; lia|]. rewrite K3 by lia. exact N0. }
  destruct l as [|[k x] l].
  - unfold os. cbn [flat_map]. apply (C0 []); auto.
  - destruct (skip && str_eqb k (lit "type")) eqn:T.
    + apply andb_true_iff in T. destruct T as [-> T]. unfold os. cbn [flat_map fst]. rewrite T. cbn [andb app]. specialize (NT eq_refl _ _ _ eq_refl). rewrite NoT by auto.
      cbn [map run_all fst snd]. unfold field at 1 3. rewrite T, (ends_with_spec _ _ _ E). cbn [N.eqb Pos.eqb andb bind]. inversion F; subst. inversion P; subst. apply C0; auto. cbn. unfold list_max. lia.
    + assert (A : skip = true -> Forall (fun kx => fst kx <> lit "type") ((k, x) :: l)).
      { intros S. constructor; [|exact (NT S _ _ _ eq_refl)]. cbn [fst]. rewrite S in T. cbn [andb] in T. intros Q. apply str_eqb_eq in Q. congruence. }
      unfold os. rewrite NoT by exact A. apply C0; auto.
Qed.
Lemma plain_parts v : plain_names v -> match v with
  | VNew _ v => plain_names v
  | VSeq l | VTuple l | VTupleVariant _ l => Forall plain_names l
  | VMap l => Forall (fun kx => plain_names (fst kx) /\ plain_names (snd kx)) l
  | VStruct _ l | VStructVariant _ l => Forall (fun kx => plain_names (snd kx)) l
  | _ => True
  end.
Proof.
  unfold plain_names. destruct v; cbn [parts]; intros H; try exact Logic.I; inversion H as [|? ? H1 H2]; subst; try (apply plain_flat in H2; exact H2); [exact H2|].
  apply plain_flat in H2. eapply Forall_impl; [|exact H2]. intros kx K. apply Forall_app in K. exact K.
Qed.
Lemma group_option n b items pre post : pre = n ++ opening b -> post = closing b ->
  option_map text_of (group n b items) = option_map (fun es => pre ++ commas (map text_of es) ++ post) (all_some items).
Proof. intros -> ->. unfold group. destruct (all_some items) as [es|]; [|reflexivity]. cbn [option_map text_of]. rewrite <- app_assoc. reflexivity. Qed.
Lemma ends_lit n c : ends (n ++ [c]) c. Proof. exists n. reflexivity. Qed.
Lemma ends_one c : ends [c] c. Proof. exists []. reflexivity. Qed.

Lemma serialize_writes v : plain_names v -> writes (serialize L v) (depth v) (option_map text_of (expr_of L v)).
Proof.
  induction v as [b|z|t|t| |n|n v IHv|l H|l H|n l H|l H|n l H|n l H] using value_ind'; intros P; pose proof (plain_parts _ P) as PP; cbn [depth expr_of].
  - apply atom_writes.
  - apply atom_writes.
  - apply atom_writes.
  - intros s0 R. cbn [serialize]. unfold print_str, shown_text. destruct (l_string L) as [m|]; [|apply (atom_writes _ _ s0 R)]. destruct (m <? blen t); [|apply (atom_writes _ _ s0 R)].
    destruct (str_get t 0 m) as [p|]; cbn [option_map of_option bind]; [|reflexivity]. destruct (atom_writes (quote ++ (p ++ lit "...") ++ quote) _ s0 R) as (s' & E & O & K). exists s'. split; [rewrite <- E, <- !app_assoc; reflexivity|]. split; [exact O|exact K].
  - apply atom_writes.
  - apply atom_writes.
  - intros s R. cbn [serialize]. specialize (IHv PP (put (n ++ lit "(") s) R). unfold group. cbn [all_some]. destruct (expr_of L v) as [e|]; cbn [option_map]; [|rewrite IHv; reflexivity].
    destruct IHv as (s' & -> & O & K). eexists. split; [reflexivity|]. split; [|exact K]. cbn [put s_out text_of map commas opening closing]. rewrite O. cbn [put s_out]. rewrite <- !app_assoc. reflexivity.
  - rewrite (group_option [] Square _ (lit "[") (lit "]") eq_refl eq_refl). apply (elements_write _ 91%N); [auto|apply ends_one|exact H|exact PP].
  - rewrite (group_option [] Round _ (lit "(") (lit ")") eq_refl eq_refl). apply (elements_write _ 40%N); [auto|apply ends_one|exact H|exact PP].
  - rewrite (group_option n Round _ (n ++ lit "(") (lit ")") eq_refl eq_refl). apply (elements_write _ 40%N); [auto|apply ends_lit|exact H|exact PP].
  - rewrite (group_option [] Curly _ (lit "{") (lit "}") eq_refl eq_refl).
    eapply (writes_ext _ (in_group (lit "{") (lit "}") (run_all (map (fun kx => fun s => let! s := element L 123 (serialize L (fst kx)) s in map_value L (serialize L (snd kx)) s) l)))).
    { intros s. cbn [serialize]. unfold in_group. destruct (open_group L (lit "{") s) as [s1| |]; cbn [bind]; [|reflexivity|reflexivity]. rewrite loop_entries. reflexivity. }
    apply (counted_group _ 123%N); [auto|apply ends_one|].
    assert (G : forall l', incl l' l -> Forall2 (fun f o => counted 123 f (list_max (map (fun kx => Nat.max (depth (fst kx)) (depth (snd kx))) l)) (option_map text_of o) /\ forall e, o = Some e -> ends_well (text_of e))
      (map (fun kx => fun s => let! s := element L 123 (serialize L (fst kx)) s in map_value L (serialize L (snd kx)) s) l') (map (fun kx => both EEntry (expr_of L (fst kx)) (expr_of L (snd kx))) l')).
    { rewrite Forall_forall in H, PP. induction l' as [|kx l' IH]; intros I; cbn [map]; constructor; [|apply IH; intros y Y; apply I; right; exact Y]. assert (Ik : In kx l) by (apply I; left; reflexivity).
      destruct (H kx Ik) as [H1 H2]. destruct (PP kx Ik) as [P1 P2]. pose proof (max_in (fun kx => Nat.max (depth (fst kx)) (depth (snd kx))) kx l Ik) as M. cbn beta in M. split.
      - pose proof (entry_counted (serialize L (fst kx)) (serialize L (snd kx)) (list_max (map (fun kx => Nat.max (depth (fst kx)) (depth (snd kx))) l)) (option_map text_of (expr_of L (fst kx))) (option_map text_of (expr_of L (snd kx)))
          (writes_more _ (depth (fst kx)) _ _ (Nat.le_trans _ _ _ (Nat.le_max_l _ _) M) (H1 P1)) (writes_more _ (depth (snd kx)) _ _ (Nat.le_trans _ _ _ (Nat.le_max_r _ _) M) (H2 P2))) as EC.
        destruct (expr_of L (fst kx)), (expr_of L (snd kx)); exact EC.
      - intros e E. destruct (expr_of L (fst kx)) as [a|]; [|discriminate]. destruct (expr_of L (snd kx)) as [b|] eqn:EB; [|discriminate]. injection E as <-. cbn [text_of]. apply well_app, well_app. eapply value_ends; [apply plain_self; exact P2|exact EB]. }
    apply G. intros y Y. exact Y.
  - rewrite (group_option (strip_helper n) Round _ (strip_helper n ++ lit "(") (lit ")") eq_refl eq_refl). apply (fields_write _ _ true); [apply ends_lit|exact H|exact PP|]. intros _. apply (plain_self _ P).
  - rewrite (group_option n Round _ (n ++ lit "(") (lit ")") eq_refl eq_refl).
    replace (map (fun kx : str * value => option_map (ENamed (fst kx)) (expr_of L (snd kx))) l) with (flat_map (fun kx : str * value => if false && str_eqb (fst kx) (lit "type") then [] else [option_map (ENamed (fst kx)) (expr_of L (snd kx))]) l) by (clear; induction l as [|kx l IH]; [reflexivity|]; cbn [flat_map map]; rewrite IH; reflexivity).
    apply (fields_write _ _ false); [apply ends_lit|exact H|exact PP|discriminate].
Qed.

Lemma printed_text v : plain_names v -> depth v < l_depth L -> printed L v = match expr_of L v with Some e => Ok (text_of e) | None => Panic end.
Proof.
  intros P D. unfold printed. pose proof (serialize_writes v P (mkSer [] (repeat 0 (l_depth L)) 0)) as H. assert (R : room (mkSer [] (repeat 0 (l_depth L)) 0) (depth v)) by (split; [apply repeat_length|exact D]). specialize (H R).
  destruct (expr_of L v) as [e|]; cbn [option_map] in H; [|rewrite H; reflexivity]. destruct H as (s' & -> & O & _). cbn [bind]. rewrite O. reflexivity.
Qed.
End printing.
