(** What [repr] writes can be read in one way only (C93). *)
From Coq Require Import ZArith String DecimalString DecimalN DecimalPos DecimalFacts.
From Verif Require Import Base ListFacts StrBytes VisualModel PyReprModel PyReprSpec PyReprProofs.

Definition stop (t : str) : Prop := match t with [] => True | c :: _ => ~ word_char c end.
Lemma span_eq : forall a b r r', Forall word_char a -> Forall word_char b -> stop r -> stop r' -> a ++ r = b ++ r' -> a = b /\ r = r'.
Proof.
  induction a as [|c a IH]; intros [|d b] r r' A B S S' E; cbn [app] in E.
  - auto.
  - subst r. inversion B; subst. cbn in S. contradiction.
  - subst r'. inversion A; subst. cbn in S'. contradiction.
  - injection E as -> E. inversion A; subst. inversion B; subst. destruct (IH b r r') as [-> ->]; auto.
Qed.
Definition begins (P : char -> Prop) (t : str) : Prop := match t with [] => False | c :: _ => P c end.
(** What can come after an item, and after an atom. *)
Definition after_item (r : str) : Prop := r = [] \/ begins (fun c => c = 44 \/ c = 41 \/ c = 93 \/ c = 125)%N r.
Definition after_atom (r : str) : Prop := after_item r \/ begins (fun c => c = 58)%N r.
Lemma after_stop r : after_atom r -> stop r.
Proof. intros [[->|H]|H]; [exact Logic.I|..]; destruct r as [|c r]; cbn in *; try contradiction; unfold word_char; lia. Qed.
Definition is_open (c : char) : Prop := (c = 40 \/ c = 91 \/ c = 123)%N.
Lemma opening_open b : exists c, opening b = [c] /\ is_open c.
Proof. destruct b; eexists; (split; [reflexivity|]); unfold is_open; auto. Qed.
Lemma closing_after b r : after_item (closing b ++ r).
Proof. right. destruct b; cbn; auto. Qed.

(** The word characters at the front of an atom and what follows them. *)
Lemma atom_front e r : atom e -> readable e -> after_atom r ->
  exists w t, text_of e ++ r = w ++ t /\ Forall word_char w /\ stop t /\ ~ begins (fun c => c = 61)%N t /\
    (w = lit "..." -> begins is_open t) /\ (w = [] -> begins (fun c => c = 34%N \/ is_open c) t).
Proof.
  intros A R F. destruct e as [w|t|n b l|k e|k e|]; cbn [atom] in A; try contradiction; cbn [readable] in R.
  - destruct R as [[W1 W2] W3]. exists w, r. split; [reflexivity|]. split; [exact W2|]. split; [apply after_stop; exact F|]. split; [|split; intros; contradiction].
    destruct F as [[F|F]|F]; destruct r; cbn in *; try tauto; try discriminate; lia.
  - exists [], (quote ++ t ++ quote ++ r). split; [cbn [text_of app]; rewrite <- !app_assoc; reflexivity|]. split; [constructor|]. cbn. unfold word_char. repeat split; try lia; try discriminate.
  - destruct (opening_open b) as (c & EO & HO). exists n, (opening b ++ commas (map text_of l) ++ closing b ++ r). split; [cbn [text_of]; rewrite <- !app_assoc; reflexivity|]. split; [apply R|]. rewrite EO. cbn [app stop begins]. unfold word_char. unfold is_open in *. repeat split; try lia; auto.
Qed.
Lemma quote_split : forall a b r r', ~ In 34%N a -> ~ In 34%N b -> a ++ 34%N :: r = b ++ 34%N :: r' -> a = b /\ r = r'.
Proof.
  induction a as [|c a IH]; intros [|d b] r r' A B E; cbn [app] in E.
  - injection E as ->. auto.
  - injection E as <- _. exfalso. apply B. left. reflexivity.
  - injection E as -> _. exfalso. apply A. left. reflexivity.
  - injection E as -> E. destruct (IH b r r') as [-> ->]; auto; intros I; [apply A|apply B]; right; exact I.
Qed.

Definition item_inj (n : nat) : Prop := forall e e' r r', length (text_of e) < n -> readable e -> readable e' -> after_item r -> after_item r' -> text_of e ++ r = text_of e' ++ r' -> e = e' /\ r = r'.
Definition atom_inj (n : nat) : Prop := forall e e' r r', length (text_of e) < n -> atom e -> atom e' -> readable e -> readable e' -> after_atom r -> after_atom r' -> text_of e ++ r = text_of e' ++ r' -> e = e' /\ r = r'.

(** Every item begins with a character that does not close a group. *)
Lemma item_front e r : readable e -> after_item r -> begins (fun c => c <> 41 /\ c <> 93 /\ c <> 125)%N (text_of e ++ r).
Proof.
  assert (W : forall w t, word w -> begins (fun c => c <> 41 /\ c <> 93 /\ c <> 125)%N (w ++ t)).
  { intros [|c w] t [N F]; [contradiction|]. cbn. inversion F as [|? ? H]; subst. unfold word_char in H. lia. }
  assert (A : forall e r, atom e -> readable e -> begins (fun c => c <> 41 /\ c <> 93 /\ c <> 125)%N (text_of e ++ r)).
  { intros e0 r0 A R. destruct e0 as [w|t|n b l|k e0|k e0|]; cbn [atom] in A; try contradiction; cbn [readable text_of] in *.
    - apply W, R.
    - cbn. lia.
    - rewrite <- app_assoc. destruct n as [|c n]; [|apply W; split; [discriminate|apply R]]. destruct b; cbn; lia. }
  intros R F. destruct e as [w|t|n b l|k e|k e|]; try (apply A; [exact Logic.I|exact R]); cbn [readable text_of] in *.
  - rewrite <- app_assoc. apply W, R.
  - rewrite <- app_assoc. apply A; apply R.
  - cbn. lia.
Qed.
Lemma items_inj n b : item_inj n -> forall l l' r r', Forall (fun e => length (text_of e) < n) l -> fold_right (fun e P => readable e /\ P) True l -> fold_right (fun e P => readable e /\ P) True l' ->
  commas (map text_of l) ++ closing b ++ r = commas (map text_of l') ++ closing b ++ r' -> l = l' /\ r = r'.
Proof.
  intros J. assert (Ncl : forall x t t', begins (fun c => c <> 41 /\ c <> 93 /\ c <> 125)%N (x ++ t) -> x ++ t = closing b ++ t' -> False).
  { intros x t t' B E. rewrite E in B. destruct b; cbn in B; lia. }
  assert (Aft : forall l r, after_item (match map text_of l with [] => [] | _ => lit ", " ++ commas (map text_of l) end ++ closing b ++ r)).
  { intros [|e l] r; [apply closing_after|]. right. cbn. auto. }
  induction l as [|e l IH]; intros [|e' l'] r r' S R R' E; cbn [map fold_right] in *.
  - split; [reflexivity|]. do 2 apply app_inv_head in E. exact E.
  - exfalso. rewrite commas_cons, <- app_assoc in E. symmetry in E. eapply Ncl; [|exact E]. apply item_front; [apply R'|apply Aft].
  - exfalso. rewrite commas_cons, <- app_assoc in E. eapply Ncl; [|exact E]. apply item_front; [apply R|apply Aft].
  - rewrite !commas_cons, <- !app_assoc in E. inversion S; subst. destruct (J e e' _ _ H1 (proj1 R) (proj1 R') (Aft l r) (Aft l' r') E) as [-> E2].
    destruct l as [|x l], l' as [|x' l']; cbn [map] in E2.
    + do 2 apply app_inv_head in E2. subst. auto.
    + exfalso. destruct b; discriminate.
    + exfalso. destruct b; discriminate.
    + rewrite <- !app_assoc in E2. apply app_inv_head in E2. destruct (IH (x' :: l') r r' H2 (proj2 R) (proj2 R') E2) as [-> ->]. auto.
Qed.
Lemma atoms_from_items n : item_inj n -> atom_inj (S n).
Proof.
  intros J e e' r r' S A A' R R' F F' E.
  destruct e as [w|t|m b l|k e|k e|]; cbn [atom] in A; try contradiction; destruct e' as [w'|t'|m' b' l'|k' e'|k' e'|]; cbn [atom] in A'; try contradiction; cbn [readable] in R, R'; cbn [text_of] in E.
  - destruct (span_eq w w' r r') as [-> ->]; auto; try apply R; try apply R'; apply after_stop; assumption.
  - exfalso. destruct R as [[W1 W2] _]. destruct w as [|c w]; [contradiction|]. injection E as -> _. inversion W2 as [|? ? H]; subst. unfold word_char in H. lia.
  - exfalso. rewrite <- !app_assoc in E. destruct (opening_open b') as (c & EO & HO). rewrite EO in E. destruct (span_eq w m' r ([c] ++ commas (map text_of l') ++ closing b' ++ r')) as [_ Q]; auto; try apply R; try apply R'; [apply after_stop; exact F|cbn; unfold is_open, word_char in *; lia|].
    subst r. unfold is_open in HO. destruct F as [[Q|Q]|Q]; cbn in Q; [discriminate|lia|lia].
  - exfalso. destruct R' as [[W1 W2] _]. destruct w' as [|c w']; [contradiction|]. injection E as <- _. inversion W2 as [|? ? H]; subst. unfold word_char in H. lia.
  - rewrite <- !app_assoc in E. injection E as E. destruct (quote_split t t' r r' R R' E) as [-> ->]. auto.
  - exfalso. rewrite <- !app_assoc in E. destruct (opening_open b') as (c & EO & HO). rewrite EO in E. unfold is_open in HO. destruct m' as [|d m']; [injection E as E _; lia|]. injection E as <- _. destruct R' as [R' _]. inversion R' as [|? ? H]; subst. unfold word_char in H. lia.
  - exfalso. rewrite <- !app_assoc in E. destruct (opening_open b) as (c & EO & HO). rewrite EO in E. destruct (span_eq m w' ([c] ++ commas (map text_of l) ++ closing b ++ r) r') as [_ Q]; auto; try apply R; try apply R'; [cbn; unfold is_open, word_char in *; lia|apply after_stop; exact F'|].
    subst r'. unfold is_open in HO. destruct F' as [[Q|Q]|Q]; cbn in Q; [discriminate|lia|lia].
  - exfalso. rewrite <- !app_assoc in E. destruct (opening_open b) as (c & EO & HO). rewrite EO in E. unfold is_open in HO. destruct m as [|d m]; [injection E as E _; lia|]. injection E as -> _. destruct R as [R _]. inversion R as [|? ? H]; subst. unfold word_char in H. lia.
  - rewrite <- !app_assoc in E. destruct (opening_open b) as (c & EO & HO). destruct (opening_open b') as (c' & EO' & HO'). rewrite EO, EO' in E.
    destruct (span_eq m m' ([c] ++ commas (map text_of l) ++ closing b ++ r) ([c'] ++ commas (map text_of l') ++ closing b' ++ r')) as [-> Q]; try apply R; try apply R'; [cbn; unfold is_open, word_char in *; lia..|exact E|].
    injection Q as -> Q. assert (b = b') by (destruct b, b'; try reflexivity; rewrite <- EO' in EO; discriminate). subst b'.
    destruct (items_inj n b J l l' r r') as [-> ->]; auto; [|apply R|apply R'].
    clear -S. cbn [text_of] in S. assert (LC : forall x, In x l -> length (text_of x) <= length (commas (map text_of l))).
    { clear. induction l as [|y l IH]; intros x I; [contradiction|]. cbn [map]. rewrite commas_cons, app_length. destruct I as [->|I]; [lia|]. specialize (IH x I). destruct l; [contradiction|]. cbn [map]. rewrite app_length. cbn [map] in IH. lia. }
    apply Forall_forall. intros x I. specialize (LC x I). rewrite !app_length in S. assert (length (opening b) = 1) by (destruct b; reflexivity). lia.
Qed.

(** An item is an atom with what may follow it, or a named argument, or dots. *)
Lemma items_from_atoms n : atom_inj n -> item_inj n.
Proof.
  intros J e e' r r' S R R' F F' E.
  assert (Split : forall e r, readable e -> after_item r ->
    (exists k tl, atom k /\ readable k /\ after_atom tl /\ text_of e ++ r = text_of k ++ tl /\ length (text_of k) <= length (text_of e) /\
       ((e = k /\ tl = r) \/ (exists v, e = EEntry k v /\ atom v /\ readable v /\ tl = lit ":" ++ text_of v ++ r /\ length (text_of v) <= length (text_of e))))
    \/ (exists k v, e = ENamed k v) \/ e = EDots).
  { clear. intros e r R F. destruct e as [w|t|m b l|k e|k e|]; try (left; eexists _, r; split; [|split; [exact R|]; split; [left; exact F|]; split; [reflexivity|]; split; [lia|auto]]; exact Logic.I).
    - right. left. eauto.
    - left. exists k, (lit ":" ++ text_of e ++ r). cbn [readable text_of] in *. destruct R as (A & R & A' & R'). split; [exact A|]. split; [exact R|]. split; [right; cbn; reflexivity|]. split; [rewrite <- !app_assoc; reflexivity|]. rewrite !app_length. split; [lia|]. right. exists e. repeat split; auto. cbn. lia.
    - right. right. reflexivity. }
  assert (Front : forall e r, (exists k v, e = ENamed k v) \/ e = EDots -> readable e -> after_item r -> forall k tl, atom k -> readable k -> after_atom tl -> text_of e ++ r = text_of k ++ tl -> False).
  { clear. intros e r H R F k tl A Rk T Q. destruct (atom_front k tl A Rk T) as (w & t & E & W & St & NE & D & _). rewrite E in Q. destruct H as [(k' & v & ->)| ->]; cbn [readable text_of] in *.
    - rewrite <- !app_assoc in Q. destruct (span_eq k' w (lit "=" ++ text_of v ++ r) t) as [_ <-]; auto; [apply R|cbn; unfold word_char; lia|]. apply NE. reflexivity.
    - destruct (span_eq (lit "...") w r t) as [Q1 <-]; auto; [cbn; repeat (apply Forall_cons; [unfold word_char; lia|]); apply Forall_nil|apply after_stop; left; exact F|]. specialize (D (eq_sym Q1)). unfold is_open in D. destruct F as [->|F]; [exact D|]. destruct r; cbn in *; [exact D|lia]. }
  destruct (Split e r R F) as [(k & tl & A & Rk & T & Ek & Lk & C)|N1]; destruct (Split e' r' R' F') as [(k' & tl' & A' & Rk' & T' & Ek' & Lk' & C')|N2].
  - rewrite Ek, Ek' in E. destruct (J k k' tl tl') as [<- <-]; auto; [lia|]. destruct C as [[-> ->]|(v & -> & Av & Rv & -> & Lv)]; destruct C' as [[-> <-]|(v' & -> & Av' & Rv' & Q & Lv')].
    + auto.
    + exfalso. subst r. destruct F as [F|F]; [discriminate|cbn in F; lia].
    + exfalso. destruct F' as [F'|F']; [discriminate|cbn in F'; lia].
    + apply app_inv_head in Q. destruct (J v v' r r') as [<- <-]; auto; [lia|left; exact F|left; exact F'].
  - exfalso. rewrite Ek in E. symmetry in E. exact (Front e' r' N2 R' F' k tl A Rk T E).
  - exfalso. rewrite Ek' in E. exact (Front e r N1 R F k' tl' A' Rk' T' E).
  - destruct N1 as [(k & v & ->)| ->]; destruct N2 as [(k' & v' & ->)| ->]; cbn [readable text_of] in *.
    + rewrite <- !app_assoc in E. destruct (span_eq k k' (lit "=" ++ text_of v ++ r) (lit "=" ++ text_of v' ++ r')) as [<- Q]; auto; try apply R; try apply R'; try (cbn; unfold word_char; lia).
      apply app_inv_head in Q. rewrite !app_length in S. destruct (J v v' r r') as [<- <-]; auto; try apply R; try apply R'; try lia; left; assumption.
    + exfalso. rewrite <- !app_assoc in E. destruct (span_eq k (lit "...") (lit "=" ++ text_of v ++ r) r') as [_ Q]; auto; try apply R; [cbn; repeat (apply Forall_cons; [unfold word_char; lia|]); apply Forall_nil|cbn; unfold word_char; lia|apply after_stop; left; exact F'|].
      subst r'. destruct F' as [F'|F']; [discriminate|cbn in F'; lia].
    + exfalso. rewrite <- !app_assoc in E. destruct (span_eq (lit "...") k' r (lit "=" ++ text_of v' ++ r')) as [_ Q]; auto; try apply R'; [cbn; repeat (apply Forall_cons; [unfold word_char; lia|]); apply Forall_nil|apply after_stop; left; exact F|cbn; unfold word_char; lia|].
      subst r. destruct F as [F|F]; [discriminate|cbn in F; lia].
    + apply app_inv_head in E. auto.
Qed.
Lemma all_items : forall n, item_inj n /\ atom_inj n.
Proof.
  induction n as [|n [IH _]].
  - split; intros e e' r r' S; exfalso; lia.
  - pose proof (atoms_from_items n IH) as A. split; [apply items_from_atoms; exact A|exact A].
Qed.
Lemma text_inj e e' : atom e -> atom e' -> readable e -> readable e' -> text_of e = text_of e' -> e = e'.
Proof.
  intros A A' R R' E. destruct (all_items (S (length (text_of e)))) as [_ J]. destruct (J e e' [] []) as [Q _]; auto; try (left; left; reflexivity). rewrite E. reflexivity.
Qed.

(** ** Values *)
Lemma parts_flat {A} (Q : value -> Prop) (f : A -> list value) l : Forall Q (flat_map f l) -> Forall (fun x => Forall Q (f x)) l.
Proof. induction l as [|x l IH]; cbn [flat_map]; intros H; constructor; apply Forall_app in H; [apply H|apply IH, H]. Qed.
Lemma parts_all Q v : Forall Q (parts v) -> Q v /\ match v with
  | VNew _ v => Forall Q (parts v)
  | VSeq l | VTuple l | VTupleVariant _ l => Forall (fun x => Forall Q (parts x)) l
  | VMap l => Forall (fun kx => Forall Q (parts (fst kx)) /\ Forall Q (parts (snd kx))) l
  | VStruct _ l | VStructVariant _ l => Forall (fun kx => Forall Q (parts (snd kx))) l
  | _ => True
  end.
Proof.
  intros H. split; [rewrite Forall_forall in H; apply H, parts_self|]. destruct v; cbn [parts] in H; try exact Logic.I; inversion H as [|? ? H1 H2]; subst; try (apply parts_flat in H2; exact H2); [exact H2|].
  apply parts_flat in H2. eapply Forall_impl; [|exact H2]. intros kx K. apply Forall_app in K. exact K.
Qed.
Lemma all_some_in {A} : forall (l : list (option A)) es, all_some l = Some es -> l = map Some es.
Proof.
  induction l as [|[x|] l IH]; intros es E; cbn [all_some] in E; [|destruct (all_some l) as [es'|]; [|discriminate]|discriminate].
  - injection E as <-. reflexivity.
  - injection E as <-. cbn [map]. rewrite (IH es' eq_refl). reflexivity.
Qed.
Lemma all_some_ok {A} : forall l : list (option A), Forall (fun o => o <> None) l -> exists es, all_some l = Some es.
Proof.
  induction l as [|[x|] l IH]; intros F; inversion F; subst; cbn [all_some]; [eauto| |contradiction]. destruct (IH H2) as [es ->]. cbn. eauto.
Qed.
Lemma some_of_all {A} (P : A -> Prop) n d l : P d -> Forall P l -> Forall P (some_of n d l).
Proof. intros D F. unfold some_of. destruct (length l <? n); [exact F|]. apply Forall_app. split; [|repeat constructor; exact D]. rewrite <- (firstn_skipn (n - 1) l) in F. apply Forall_app in F. apply F. Qed.
Lemma group_ok n b items : Forall (fun o => o <> None) items -> group n b items <> None.
Proof. intros F. destruct (all_some_ok items F) as [es E]. unfold group. rewrite E. discriminate. Qed.
Lemma expr_total L v : l_string L = None -> expr_of L v <> None.
Proof.
  intros LS. induction v as [b|z|t|t| |n|n v IHv|l H|l H|n l H|l H|n l H|n l H] using value_ind'; cbn [expr_of]; try discriminate.
  - rewrite LS. discriminate.
  - apply group_ok. repeat constructor. exact IHv.
  - apply group_ok, some_of_all; [discriminate|]. rewrite Forall_map. exact H.
  - apply group_ok, some_of_all; [discriminate|]. rewrite Forall_map. exact H.
  - apply group_ok, some_of_all; [discriminate|]. rewrite Forall_map. exact H.
  - apply group_ok, some_of_all; [discriminate|]. rewrite Forall_map. eapply Forall_impl; [|exact H]. cbn beta. intros kx [H1 H2]. destruct (expr_of L (fst kx)); [|contradiction]. destruct (expr_of L (snd kx)); [discriminate|contradiction].
  - apply group_ok. apply Forall_forall. intros o I. apply in_flat_map in I. destruct I as (kx & I & J). rewrite Forall_forall in H. specialize (H kx I). destruct (str_eqb _ _); [contradiction|]. destruct J as [<-|[]]. destruct (expr_of L (snd kx)); [discriminate|contradiction].
  - apply group_ok. rewrite Forall_map. eapply Forall_impl; [|exact H]. cbn beta. intros kx K. destruct (expr_of L (snd kx)); [discriminate|contradiction].
Qed.
Definition fine (o : option expr) : Prop := match o with Some e => readable e | None => True end.
Lemma group_fine n b items : Forall word_char n -> Forall fine items -> fine (group n b items).
Proof.
  intros W F. unfold group. destruct (all_some items) as [es|] eqn:E; [|exact Logic.I]. apply all_some_in in E. subst items. cbn [option_map fine readable]. split; [exact W|]. rewrite Forall_map in F. induction F; cbn [fold_right]; auto.
Qed.
Lemma strip_chars n : Forall word_char n -> Forall word_char (strip_helper n).
Proof. intros F. unfold strip_helper. destruct (str_eqb _ _); [|exact F]. rewrite <- (firstn_skipn (length n - 6) n) in F. apply Forall_app in F. apply F. Qed.
Lemma not_dots c w : c <> 46%N -> c :: w <> lit "...". Proof. intros N E. apply N. injection E as E _. exact E. Qed.
Lemma expr_atom L v : match expr_of L v with Some e => atom e | None => True end.
Proof.
  assert (G : forall n b items, match group n b items with Some e => atom e | None => True end) by (intros n b items; unfold group; destruct (all_some items); exact Logic.I).
  destruct v; cbn [expr_of]; try exact Logic.I; try apply G. destruct (shown_text (l_string L) s); exact Logic.I.
Qed.
Lemma digits_no_dot : forall d, ~ In 46%N (lit (NilEmpty.string_of_uint d)).
Proof. induction d; cbn; intros I; try contradiction; destruct I as [I|I]; try discriminate; contradiction. Qed.
Lemma decimal_no_dot n : ~ In 46%N (decimal n).
Proof. unfold decimal, NilZero.string_of_uint. destruct (N.to_uint n) eqn:E; try (rewrite <- E; apply digits_no_dot). intros [H|[]]. discriminate. Qed.
Lemma int_not_dots z : int_text z <> lit "...".
Proof.
  unfold int_text. destruct (z <? 0)%Z; [discriminate|]. intros E. apply (decimal_no_dot (Z.abs_N z)). rewrite E. left. reflexivity.
Qed.
Lemma expr_readable L v : l_string L = None -> plain_names v -> unquoted v -> fine (expr_of L v).
Proof.
  intros LS. unfold plain_names, unquoted. pose proof constants as (K1 & K2 & K3).
  induction v as [b|z|t|t| |n|n v IHv|l H|l H|n l H|l H|n l H|n l H] using value_ind'; intros P U; apply parts_all in P; apply parts_all in U; destruct P as [P PP]; destruct U as [U UU]; cbn [expr_of plain_value] in *.
  - cbn [fine readable]. destruct b; (split; [assumption|discriminate]).
  - cbn [fine readable]. split; [apply int_word|apply int_not_dots].
  - split; assumption.
  - rewrite LS. exact U.
  - split; [exact K3|discriminate].
  - split; assumption.
  - apply group_fine; [apply P|]. repeat constructor. auto.
  - apply group_fine; [constructor|]. apply some_of_all; [exact Logic.I|]. rewrite Forall_map. rewrite Forall_forall in *. auto.
  - apply group_fine; [constructor|]. apply some_of_all; [exact Logic.I|]. rewrite Forall_map. rewrite Forall_forall in *. auto.
  - apply group_fine; [apply P|]. apply some_of_all; [exact Logic.I|]. rewrite Forall_map. rewrite Forall_forall in *. auto.
  - apply group_fine; [constructor|]. apply some_of_all; [exact Logic.I|]. rewrite Forall_map. rewrite Forall_forall in *. intros kx I. destruct (H kx I) as [H1 H2]. destruct (PP kx I) as [P1 P2]. destruct (UU kx I) as [U1 U2]. specialize (H1 P1 U1). specialize (H2 P2 U2).
    pose proof (expr_atom L (fst kx)) as A1. pose proof (expr_atom L (snd kx)) as A2. destruct (expr_of L (fst kx)) as [a|]; [|exact Logic.I]. destruct (expr_of L (snd kx)) as [c|]; [|exact Logic.I]. cbn [both fine readable] in *. auto.
  - destruct P as (P1 & P2 & _). apply group_fine; [apply strip_chars, P1|]. rewrite Forall_forall in *. intros o I. apply in_flat_map in I. destruct I as (kx & I & J). destruct (str_eqb _ _); [contradiction|]. destruct J as [<-|[]].
    specialize (H kx I (PP kx I) (UU kx I)). pose proof (expr_atom L (snd kx)) as A2. destruct (expr_of L (snd kx)) as [c|]; [|exact Logic.I]. cbn [option_map fine readable] in *. auto.
  - destruct P as (P1 & P2). apply group_fine; [apply P1|]. rewrite Forall_map. rewrite Forall_forall in *. intros kx I.
    specialize (H kx I (PP kx I) (UU kx I)). pose proof (expr_atom L (snd kx)) as A2. destruct (expr_of L (snd kx)) as [c|]; [|exact Logic.I]. cbn [option_map fine readable] in *. auto.
Qed.

(** ** Data *)
Lemma lit_inj : forall a b, lit a = lit b -> a = b.
Proof.
  unfold lit. intros a b E. rewrite <- (String.string_of_list_ascii_of_string a), <- (String.string_of_list_ascii_of_string b). f_equal.
  revert E. generalize (String.list_ascii_of_string a) (String.list_ascii_of_string b). intros x. induction x as [|c x IH]; intros [|d y] E; cbn [map] in E; try discriminate; [reflexivity|]. injection E as E1 E2. f_equal; [|auto]. rewrite <- (Ascii.ascii_N_embedding c), <- (Ascii.ascii_N_embedding d). f_equal. exact E1.
Qed.
Lemma decimal_inj a b : decimal a = decimal b -> a = b.
Proof.
  unfold decimal. intros E. apply lit_inj in E. assert (NN : forall n, N.to_uint n <> Decimal.Nil) by (intros [|p] Q; [discriminate|]; cbn in Q; apply (DecimalPos.Unsigned.to_uint_nonnil p Q)).
  pose proof (NilZero.usu (N.to_uint a) (NN a)) as A. rewrite E, (NilZero.usu _ (NN b)) in A. injection A as A. symmetry. apply DecimalN.Unsigned.to_uint_inj. exact A.
Qed.
Lemma decimal_front n : exists c w, decimal n = c :: w /\ (48 <= c <= 57)%N.
Proof.
  unfold decimal, NilZero.string_of_uint. destruct (N.to_uint n); cbn; eexists _, _; (split; [reflexivity|lia]).
Qed.
Lemma int_front z : exists c w, int_text z = c :: w /\ (c <= 57)%N.
Proof. unfold int_text. destruct (z <? 0)%Z; [exists 45%N; eexists; split; [reflexivity|lia]|]. destruct (decimal_front (Z.abs_N z)) as (c & w & E & H). exists c, w. split; [exact E|lia]. Qed.
Lemma int_inj a b : int_text a = int_text b -> a = b.
Proof.
  unfold int_text. destruct (a <? 0)%Z eqn:A, (b <? 0)%Z eqn:B; intros E.
  - apply app_inv_head, decimal_inj in E. lia.
  - exfalso. destruct (decimal_front (Z.abs_N b)) as (c & w & Q & H). rewrite Q in E. injection E as E _. lia.
  - exfalso. destruct (decimal_front (Z.abs_N a)) as (c & w & Q & H). rewrite Q in E. injection E as E _. lia.
  - apply decimal_inj in E. lia.
Qed.
Lemma group_inj n b b' items items' : Forall (fun o => o <> None) items -> Forall (fun o => o <> None) items' -> group n b items = group n b' items' -> b = b' /\ items = items'.
Proof.
  intros F F' E. destruct (all_some_ok _ F) as [es Q]. destruct (all_some_ok _ F') as [es' Q']. unfold group in E. rewrite Q, Q' in E. injection E as -> ->. split; [reflexivity|]. rewrite (all_some_in _ _ Q), (all_some_in _ _ Q'). reflexivity.
Qed.
Lemma some_of_short {A} n (d : A) l : length l < n -> some_of n d l = l.
Proof. intros H. unfold some_of. destruct (Nat.ltb_spec (length l) n); [reflexivity|lia]. Qed.
Lemma data_names v : data v -> plain_names v.
Proof.
  unfold plain_names. induction v as [b|z|t|t| |n|n v IHv|l H|l H|n l H|l H|n l H|n l H] using value_ind'; cbn [data parts]; intros D; try contradiction; try (repeat constructor; fail).
  - constructor; [exact Logic.I|]. induction H as [|x l H1 H2 IH]; cbn [flat_map fold_right] in *; [constructor|]. apply Forall_app. split; [apply H1, D|apply IH, D].
  - constructor; [exact Logic.I|]. induction H as [|x l H1 H2 IH]; cbn [flat_map fold_right] in *; [constructor|]. apply Forall_app. split; [apply Forall_app; split; apply H1, D|apply IH, D].
Qed.
Lemma data_inj L v : l_string L = None -> forall v', data v -> data v' -> short (l_elements L) v -> short (l_elements L) v' -> expr_of L v = expr_of L v' -> v = v'.
Proof.
  intros LS. assert (NN : forall l, Forall (fun o : option expr => o <> None) (map (expr_of L) l)) by (intros l; rewrite Forall_map; apply Forall_forall; intros; apply expr_total; exact LS).
  assert (NE : forall l, Forall (fun o : option expr => o <> None) (map (fun kx => both EEntry (expr_of L (fst kx)) (expr_of L (snd kx))) l)).
  { intros l. rewrite Forall_map. apply Forall_forall. intros kx _. pose proof (expr_total L (fst kx) LS). pose proof (expr_total L (snd kx) LS). destruct (expr_of L (fst kx)); [|contradiction]. destruct (expr_of L (snd kx)); [discriminate|contradiction]. }
  assert (WG : forall w n b items, Some (EWord w) <> group n b items) by (intros w n b items Q; unfold group in Q; destruct (all_some items); discriminate).
  assert (TG : forall w n b items, Some (EText w) <> group n b items) by (intros w n b items Q; unfold group in Q; destruct (all_some items); discriminate).
  assert (IW : forall z b, int_text z <> (if b : bool then lit "True" else lit "False")) by (intros z b Q; destruct (int_front z) as (c & w & Q' & H); rewrite Q' in Q; destruct b; injection Q as Q _; lia).
  assert (IN : forall z, int_text z <> lit "None") by (intros z Q; destruct (int_front z) as (c & w & Q' & H); rewrite Q' in Q; injection Q as Q _; lia).
  unfold short.
  induction v as [b|z|t|t| |n|n v IHv|l H|l H|n l H|l H|n l H|n l H] using value_ind'; intros v' D D' S S' E; cbn [data] in D; try contradiction; destruct v' as [b'|z'|t'|t'| |n'|n' v'|l'|l'|n' l'|l'|n' l'|n' l']; cbn [data] in D'; try contradiction; cbn [expr_of] in E; rewrite ?LS in E; cbn [shown_text option_map] in E;
    try discriminate; try (exfalso; eapply WG; exact E); try (exfalso; eapply TG; exact E); try (exfalso; eapply WG; symmetry; exact E); try (exfalso; eapply TG; symmetry; exact E).
  - assert (Q : (if b then lit "True" else lit "False") = (if b' then lit "True" else lit "False")) by congruence. destruct b, b'; try reflexivity; discriminate.
  - exfalso. apply (IW z' b). congruence.
  - exfalso. destruct b; discriminate.
  - exfalso. apply (IW z b'). congruence.
  - f_equal. apply int_inj. congruence.
  - exfalso. apply (IN z). congruence.
  - congruence.
  - exfalso. destruct b'; discriminate.
  - exfalso. apply (IN z'). congruence.
  - reflexivity.
  - apply parts_all in S; destruct S as [S SS]; apply parts_all in S'; destruct S' as [S' SS']. rewrite !some_of_short in E by (rewrite map_length; assumption). apply group_inj in E; [|apply NN|apply NN]. destruct E as [_ E]. f_equal.
    clear S S'. revert l' D' SS' E. induction H as [|x l H1 H2 IH]; intros [|x' l'] D' SS' E; try discriminate; [reflexivity|]. cbn [map fold_right] in *. injection E as E1 E2. inversion SS; subst. inversion SS'; subst. f_equal; [apply H1; tauto|apply IH; tauto].
  - exfalso. apply parts_all in S; destruct S as [S SS]; apply parts_all in S'; destruct S' as [S' SS']. rewrite !some_of_short in E by (rewrite map_length; assumption). apply group_inj in E; [|apply NN|apply NE]. destruct E as [E _]. discriminate.
  - exfalso. apply parts_all in S; destruct S as [S SS]; apply parts_all in S'; destruct S' as [S' SS']. rewrite !some_of_short in E by (rewrite map_length; assumption). apply group_inj in E; [|apply NE|apply NN]. destruct E as [E _]. discriminate.
  - apply parts_all in S; destruct S as [S SS]; apply parts_all in S'; destruct S' as [S' SS']. rewrite !some_of_short in E by (rewrite map_length; assumption). apply group_inj in E; [|apply NE|apply NE]. destruct E as [_ E]. f_equal.
    clear S S'. revert l' D' SS' E. induction H as [|[k x] l [H1 H1'] H2 IH]; intros [|[k' x'] l'] D' SS' E; try discriminate; [reflexivity|]. cbn [map fold_right fst snd] in *. injection E as E1 E2. inversion SS as [|? ? [A1 A2] A3]; subst. inversion SS' as [|? ? [B1 B2] B3]; subst. cbn [fst snd] in *.
    pose proof (expr_total L k LS) as T1. pose proof (expr_total L x LS) as T2. pose proof (expr_total L k' LS) as T3. pose proof (expr_total L x' LS) as T4.
    assert (Q : expr_of L k = expr_of L k' /\ expr_of L x = expr_of L x') by (destruct (expr_of L k); [|contradiction]; destruct (expr_of L x); [|contradiction]; destruct (expr_of L k'); [|contradiction]; destruct (expr_of L x'); [|contradiction]; cbn [both] in E1; split; congruence).
    destruct Q as [Q1 Q2]. f_equal; [f_equal; [apply H1|apply H1']; tauto|apply IH; tauto].
Qed.
