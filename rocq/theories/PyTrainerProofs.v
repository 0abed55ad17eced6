(** Proofs about the trainers as Python objects. *)
From Coq Require Import ZArith String.
From Verif Require Import Base StrBytes AMap AddedModel PySettingsModel ModelFilesModel ComponentFilesModel PyModelModel PyModelProofs PyTrainerModel PyTrainerSpec.

(** ** Reading values *)
Lemma number_read a n : t_num a = Ok n <-> number a n.
Proof.
  unfold number. destruct a; cbn [t_num]; try (split; [discriminate|intros [(?&_)|[(?&_)|(?&_)]]; discriminate]).
  - destruct b; split; intros H; try (injection H as <-; tauto); destruct H as [(H & _)|[(H & E)|(H & E)]]; try discriminate; subst; reflexivity.
  - destruct ((0 <=? z)%Z && (z <? 2 ^ 64)%Z) eqn:E; split.
    + intros H. injection H as <-. left. rewrite Z2N.id by lia. split; [reflexivity|]. apply andb_true_iff in E as [E1 E2]. apply Z.leb_le in E1. apply Z.ltb_lt in E2. apply N2Z.inj_lt. rewrite Z2N.id by lia. exact E2.
    + intros [(H & L)|[(H & _)|(H & _)]]; try discriminate. injection H as ->. rewrite N2Z.id. reflexivity.
    + discriminate.
    + intros [(H & L)|[(H & _)|(H & _)]]; try discriminate. injection H as ->. apply N2Z.inj_lt in L. change (Z.of_N (2 ^ 64)) with (2 ^ 64)%Z in L. lia.
Qed.
Lemma text_read' a s : t_str a = Ok s <-> a_text a s.
Proof. unfold a_text. destruct a; cbn [t_str]; (split; intros E; try discriminate; injection E as ->; reflexivity). Qed.
Lemma flag_read' a b : t_bool a = Ok b <-> flag a b.
Proof. unfold flag. destruct a; cbn [t_bool]; (split; intros E; try discriminate; injection E as ->; reflexivity). Qed.
Lemma some_read {T} (read : tval -> res pm_error T) M a o : (forall x, read a = Ok x <-> M a x) -> (t_some read a = Ok o <-> given M a o).
Proof.
  intros H. unfold t_some, given. rewrite bind_ok. split; intros (x & A & B).
  - exists x. split; [exact B|apply H; exact A].
  - exists x. split; [apply H; exact B|exact A].
Qed.
Lemma option_read {T} (read : tval -> res pm_error T) M a o : (forall x, read a = Ok x <-> M a x) -> (a = TNone -> forall x, ~ M a x) ->
  (t_option read a = Ok o <-> none_or M a o).
Proof.
  intros H HN. unfold none_or. destruct a; cbn [t_option]; try (fold (t_some read); rewrite <- (some_read read M _ _ H); unfold t_some; split; [tauto|intros [(?&_)|?]; [discriminate|assumption]]).
  split.
  - intros E. injection E as <-. left. tauto.
  - intros [(_ & ->)|(x & _ & B)]; [reflexivity|]. destruct (HN eq_refl _ B).
Qed.
Lemma format_read a f : t_format a = Ok f <-> format a f.
Proof.
  unfold t_format, format. rewrite bind_ok. split.
  - intros (s & A & ->). apply text_read' in A. exists s. split; [exact A|].
    destruct (str_eqb s (key "json")) eqn:E1.
    + apply str_eqb_eq in E1. subst s. split; split; intros; try reflexivity; try discriminate.
    + destruct (str_eqb s (key "silent")) eqn:E2.
      * apply str_eqb_eq in E2. subst s. split; split; intros; try reflexivity; discriminate.
      * split; split; intros X; try discriminate; subst s; rewrite str_eqb_refl in *; discriminate.
  - intros (s & -> & A & B). exists s. split; [reflexivity|].
    destruct (str_eqb s (key "json")) eqn:E1; [apply str_eqb_eq in E1; tauto|].
    destruct (str_eqb s (key "silent")) eqn:E2; [apply str_eqb_eq in E2; tauto|].
    destruct f; [reflexivity| |].
    + destruct A as [A _]. rewrite (A eq_refl), str_eqb_refl in E1. discriminate.
    + destruct B as [B _]. rewrite (B eq_refl), str_eqb_refl in E2. discriminate.
Qed.
Lemma seq_read a l : t_seq a = Ok l <-> a_sequence a l.
Proof. unfold a_sequence. destruct a; cbn [t_seq]; (split; [intros E; try discriminate; injection E as ->; tauto|intros [E|E]; try discriminate; injection E as ->; reflexivity]). Qed.
Lemma texts_read l : forall ss, map_res e_text l = Ok ss <-> l = map EText ss.
Proof.
  induction l as [|e l IH]; intros ss; cbn [map_res].
  - split; [intros E; injection E as <-; reflexivity|destruct ss; [reflexivity|discriminate]].
  - destruct e as [s|r|]; cbn [e_text bind].
    + rewrite bind_ok. split.
      * intros (x & A & ->). apply IH in A. subst l. reflexivity.
      * destruct ss as [|s' ss]; [discriminate|]. intros E. injection E as -> ->. exists ss. split; [apply IH; reflexivity|reflexivity].
    + split; [discriminate|destruct ss; discriminate].
    + split; [discriminate|destruct ss; discriminate].
Qed.
Lemma chars_read l : forall cs, map_res e_char l = Ok cs <-> l = map (fun c => EText [c]) cs.
Proof.
  induction l as [|e l IH]; intros cs; cbn [map_res].
  - split; [intros E; injection E as <-; reflexivity|destruct cs; [reflexivity|discriminate]].
  - destruct e as [s|r|]; cbn [e_char].
    + destruct s as [|c [|c2 s]]; cbn [bind]; try (split; [discriminate|destruct cs; discriminate]).
      rewrite bind_ok. split.
      * intros (x & A & ->). apply IH in A. subst l. reflexivity.
      * destruct cs as [|s' ss]; [discriminate|]. intros E. injection E as -> ->. exists ss. split; [apply IH; reflexivity|reflexivity].
    + split; [discriminate|destruct cs; discriminate].
    + split; [discriminate|destruct cs; discriminate].
Qed.

Definition exact_new (a : tval) (cs : list char) : Prop := t_alphabet_new a = Ok cs.
Definition exact_set (a : tval) (cs : list char) : Prop := t_alphabet_set a = Ok cs.
Lemma in_firsts c ss : In c (flat_map (fun s : str => match s with c :: _ => [c] | [] => [] end) ss) <-> exists s, In (c :: s) ss.
Proof.
  rewrite in_flat_map. split.
  - intros ([|d s] & A & B); [destruct B|]. destruct B as [->|[]]. exists s. exact A.
  - intros (s & A). exists (c :: s). split; [exact A|left; reflexivity].
Qed.
Lemma exact_new_first a cs : exact_new a cs -> first_chars a cs.
Proof.
  unfold exact_new, t_alphabet_new, first_chars. destruct (t_seq a) as [l|e|] eqn:E1; cbn [bind]; try discriminate.
  apply seq_read in E1. destruct (map_res e_text l) as [ss|e|] eqn:E2; cbn [bind]; try discriminate. apply texts_read in E2. subst l.
  intros E. assert (X : cs = nodup N.eq_dec (flat_map (fun s : str => match s with c :: _ => [c] | [] => [] end) ss)) by congruence. subst cs.
  exists ss. split; [exact E1|]. split; [apply NoDup_nodup|]. intros c. rewrite nodup_In. apply in_firsts.
Qed.
Lemma first_exact a cs : first_chars a cs -> exists cs', exact_new a cs'.
Proof.
  intros (ss & A & _). apply seq_read in A. unfold exact_new, t_alphabet_new. rewrite A. cbn [bind]. rewrite (proj2 (texts_read _ ss) eq_refl). cbn [bind]. eauto.
Qed.
Lemma exact_set_chars a cs : exact_set a cs -> the_chars a cs.
Proof.
  unfold exact_set, t_alphabet_set, the_chars. destruct (t_seq a) as [l|e|] eqn:E1; cbn [bind]; try discriminate.
  apply seq_read in E1. destruct (map_res e_char l) as [ss|e|] eqn:E2; cbn [bind]; try discriminate. apply chars_read in E2. subst l.
  intros E. assert (X : cs = nodup N.eq_dec ss) by congruence. subst cs.
  exists ss. split; [exact E1|]. split; [apply NoDup_nodup|]. intros c. apply nodup_In.
Qed.
Lemma chars_exact a cs : the_chars a cs -> exists cs', exact_set a cs'.
Proof.
  intros (ss & A & _). apply seq_read in A. unfold exact_set, t_alphabet_set. rewrite A. cbn [bind]. rewrite (proj2 (chars_read _ ss) eq_refl). cbn [bind]. eauto.
Qed.
Definition exact (new : bool) := if new then exact_new else exact_set.
Lemma exact_meaning new a cs : exact new a cs -> (if new then first_chars else the_chars) a cs.
Proof. destruct new; [apply exact_new_first|apply exact_set_chars]. Qed.
Lemma meaning_exact (new : bool) a cs : (if new then first_chars else the_chars) a cs -> exists cs', exact new a cs'.
Proof. destruct new; [apply first_exact|apply chars_exact]. Qed.

(** ** The special tokens *)
Lemma mark_at_length k : forall st, List.length (mark_at k st) = List.length st.
Proof. induction k as [|k IH]; intros [|t st]; cbn; [reflexivity..|]. rewrite IH. reflexivity. Qed.
Lemma mark_at_same k : forall st p, nth_error st k = Some p -> nth_error (mark_at k st) k = Some (as_special p).
Proof. induction k as [|k IH]; intros [|t st] p; cbn; try discriminate; [intros E; injection E as ->; reflexivity|apply IH]. Qed.
Lemma mark_at_other k : forall st r, r <> k -> nth_error (mark_at k st) r = nth_error st r.
Proof. induction k as [|k IH]; intros [|t st] [|r] H; cbn; try reflexivity; try congruence. apply IH. congruence. Qed.

Lemma marked_nil st : marked [] st st.
Proof. split; [reflexivity|]. intros r p H. right. split; [intros []|exact H]. Qed.
Lemma marked_text s l st st' : marked (EText s :: l) st st' <-> marked l st st'.
Proof.
  unfold marked. split; intros (A & B); (split; [exact A|]); intros r p H; destruct (B r p H) as [[C D]|[C D]].
  - left. destruct C as [C|C]; [discriminate|]. tauto.
  - right. split; [intros X; apply C; right; exact X|exact D].
  - left. split; [right; exact C|exact D].
  - right. split; [intros [X|X]; [discriminate|tauto]|exact D].
Qed.
Lemma elem_in r l : {In (EToken r) l} + {~ In (EToken r) l}.
Proof. apply in_dec. intros x y. decide equality; [apply (list_eq_dec N.eq_dec)|apply Nat.eq_dec]. Qed.
Lemma marked_token k l st st' p0 : nth_error st k = Some p0 -> (marked (EToken k :: l) st st' <-> marked l (mark_at k st) st').
Proof.
  intros HK. unfold marked. rewrite mark_at_length. split; intros (A & B); (split; [exact A|]); intros r p H.
  - destruct (Nat.eq_dec r k) as [->|NE].
    + rewrite (mark_at_same k st p0 HK) in H. injection H as <-. destruct (B k p0 HK) as [[C D]|[C D]]; [|exfalso; apply C; left; reflexivity].
      destruct (elem_in k l) as [IN|NI]; [left|right]; (split; [assumption|exact D]).
    + rewrite mark_at_other in H by exact NE. destruct (B r p H) as [[C D]|[C D]].
      * left. destruct C as [C|C]; [injection C as ->; congruence|]. tauto.
      * right. split; [intros X; apply C; right; exact X|exact D].
  - destruct (Nat.eq_dec r k) as [->|NE].
    + rewrite HK in H. injection H as <-. left. split; [left; reflexivity|]. destruct (B k _ (mark_at_same k st p0 HK)) as [[C D]|[C D]]; exact D.
    + rewrite <- (mark_at_other k st r NE) in H. destruct (B r p H) as [[C D]|[C D]].
      * left. split; [right; exact C|exact D].
      * right. split; [intros [X|X]; [injection X as ->; congruence|tauto]|exact D].
Qed.
Lemma special_marked k st e t : special_token (mark_at k st) e t <-> special_token st e t.
Proof.
  destruct e as [s|r|]; cbn [special_token]; try tauto. destruct (Nat.eq_dec r k) as [->|NE].
  - destruct (nth_error st k) as [p0|] eqn:E.
    + rewrite (mark_at_same k st p0 E). split; intros (p & A & B); injection A as <-; eexists; (split; [reflexivity|exact B]).
    + assert (N0 : nth_error (mark_at k st) k = None) by (apply nth_error_None; rewrite mark_at_length; apply nth_error_None; exact E). rewrite N0. split; intros (p & A & _); discriminate.
  - rewrite mark_at_other by exact NE. tauto.
Qed.
Lemma specials_marked k st l ts : Forall2 (special_token (mark_at k st)) l ts <-> Forall2 (special_token st) l ts.
Proof.
  split; intros H; (induction H as [|e t l' ts' H0 H IH]; constructor; [|exact IH]); apply (special_marked k st e t); exact H0.
Qed.
Lemma nth_ext_error {A} : forall l l' : list A, (forall r, nth_error l r = nth_error l' r) -> l = l'.
Proof.
  induction l as [|x l IH]; intros [|y l'] H; [reflexivity|specialize (H O); discriminate|specialize (H O); discriminate|].
  f_equal; [specialize (H O); cbn in H; congruence|]. apply IH. intros r. apply (H (S r)).
Qed.
Lemma marked_fun l st a b : marked l st a -> marked l st b -> a = b.
Proof.
  intros (LA & A) (LB & B). apply nth_ext_error. intros r. destruct (nth_error st r) as [p|] eqn:E.
  - destruct (A r p E) as [[C D]|[C D]], (B r p E) as [[C' D']|[C' D']]; try tauto; congruence.
  - apply nth_error_None in E. assert (X : nth_error a r = None) by (apply nth_error_None; lia). assert (Y : nth_error b r = None) by (apply nth_error_None; lia). congruence.
Qed.

Lemma read_specials_ok l : forall st st' ts,
  read_specials st l = (st', Ok ts) <-> Forall2 (special_token st) l ts /\ marked l st st'.
Proof.
  induction l as [|e l IH]; intros st st' ts; cbn [read_specials].
  - split.
    + intros E. injection E as <- <-. split; [constructor|apply marked_nil].
    + intros (F & M). inversion F; subst. rewrite (marked_fun _ _ _ _ M (marked_nil st)). reflexivity.
  - destruct e as [s|k|].
    + destruct (read_specials st l) as [st1 r1] eqn:E1. split.
      * intros E. assert (ES : st1 = st') by congruence. assert (ER : (let! ts := r1 in Ok (get_token (token_from s true) :: ts)) = Ok ts) by congruence.
        apply bind_ok in ER as (x & -> & ->). subst st1. apply IH in E1 as [F M]. split; [constructor; [reflexivity|exact F]|apply (proj2 (marked_text _ _ _ _)); exact M].
      * intros (F & M). inversion F as [|? t ? ts' H0 F' X1 X2]; subst. pose proof (proj1 (marked_text _ _ _ _) M) as M'. assert (R : read_specials st l = (st', Ok ts')) by (apply IH; split; [exact F'|exact M']).
        rewrite R in E1. injection E1 as <- <-. cbn [special_token] in H0. subst t. reflexivity.
    + destruct (nth_error st k) as [p|] eqn:EK.
      * destruct (read_specials (mark_at k st) l) as [st1 r1] eqn:E1. split.
        -- intros E. assert (ES : st1 = st') by congruence. assert (ER : (let! ts := r1 in Ok (get_token (make_special p) :: ts)) = Ok ts) by congruence.
           apply bind_ok in ER as (x & -> & ->). subst st1. apply IH in E1 as [F M]. apply specials_marked in F. split.
           ++ constructor; [exists p; split; [exact EK|reflexivity]|exact F].
           ++ apply (proj2 (marked_token k l st st' p EK)). exact M.
        -- intros (F & M). inversion F as [|? t ? ts' H0 F' X1 X2]; subst. pose proof (proj1 (marked_token k l st st' p EK) M) as M'.
           assert (R : read_specials (mark_at k st) l = (st', Ok ts')) by (apply IH; split; [apply specials_marked; exact F'|exact M']).
           rewrite R in E1. injection E1 as <- <-. destruct H0 as (p' & A & ->). rewrite EK in A. injection A as <-. reflexivity.
      * split; [discriminate|]. intros (F & _). inversion F as [|? t ? ts' H0 F' X1 X2]; subst. destruct H0 as (p & A & _). congruence.
    + split; [discriminate|]. intros (F & _). inversion F as [|? t ? ts' H0 F' X1 X2]; subst. destruct H0.
Qed.

(** Whatever happens, the objects of a first part of the list are made special. *)
Lemma read_specials_store l : forall st st' r, read_specials st l = (st', r) -> exists l1 l2, l = l1 ++ l2 /\ marked l1 st st'.
Proof.
  induction l as [|e l IH]; intros st st' r; cbn [read_specials].
  - intros E. exists [], []. split; [reflexivity|]. replace st' with st by congruence. apply marked_nil.
  - assert (Z : forall e, exists l1 l2, e :: l = l1 ++ l2 /\ marked l1 st st) by (intros e0; exists [], (e0 :: l); split; [reflexivity|apply marked_nil]).
    destruct e as [s|k|].
    + destruct (read_specials st l) as [st1 r1] eqn:E1. intros E. destruct (IH _ _ _ E1) as (l1 & l2 & -> & M). exists (EText s :: l1), l2. split; [reflexivity|]. replace st' with st1 by congruence. apply (proj2 (marked_text _ _ _ _)). exact M.
    + destruct (nth_error st k) as [p|] eqn:EK.
      * destruct (read_specials (mark_at k st) l) as [st1 r1] eqn:E1. intros E. destruct (IH _ _ _ E1) as (l1 & l2 & -> & M). exists (EToken k :: l1), l2. split; [reflexivity|]. replace st' with st1 by congruence. apply (proj2 (marked_token k l1 st st1 p EK)). exact M.
      * intros E. replace st' with st by congruence. apply Z.
    + intros E. replace st' with st by congruence. apply Z.
Qed.
Lemma read_specials_calm l : forall st, snd (read_specials st l) <> Panic.
Proof.
  induction l as [|e l IH]; intros st; cbn [read_specials]; [discriminate|]. destruct e as [s|k|]; [| |discriminate].
  - specialize (IH st). destruct (read_specials st l) as [st1 [x|x|]]; cbn in *; congruence.
  - destruct (nth_error st k); [|discriminate]. specialize (IH (mark_at k st)). destruct (read_specials (mark_at k st) l) as [st1 [x|x|]]; cbn in *; congruence.
Qed.

(** ** One attribute *)
Definition has (kd : kind) (x : string) : bool := existsb (String.eqb x) (attributes kd).
Lemma says_nil' {T} (M : tval -> T -> Prop) kd x d v : t_says M kd [] x d v <-> v = d.
Proof. unfold t_says. destruct (existsb _ _); cbn; tauto. Qed.
Lemma says_cons' {T} (M : tval -> T -> Prop) kd k a kw x d v :
  (t_says M kd ((k, a) :: kw) x d v <-> if has kd x && str_eqb (key x) k then M a v else t_says M kd kw x d v).
Proof. unfold t_says, has. cbn [aget]. destruct (existsb _ _), (str_eqb (key x) k); cbn; reflexivity. Qed.
Lemma says_other' {T} (M : tval -> T -> Prop) kd kw x d v : ~ In (key x) (map fst kw) -> (t_says M kd kw x d v <-> v = d).
Proof.
  intros H. unfold t_says. destruct (existsb _ _); [|tauto]. destruct (aget str_eqb (key x) kw) as [a|] eqn:E; [|tauto]. apply (aget_In str_eqb str_eqb_eq) in E. apply (in_map fst) in E. tauto.
Qed.
Lemma says_one' {T} (M : tval -> T -> Prop) kd k a x d v : t_says M kd [(k, a)] x d v <-> if has kd x && str_eqb k (key x) then M a v else v = d.
Proof.
  rewrite says_cons'. replace (str_eqb (key x) k) with (str_eqb k (key x)).
  - destruct (has kd x && str_eqb k (key x)); [reflexivity|apply says_nil'].
  - destruct (str_eqb k (key x)) eqn:E; destruct (str_eqb (key x) k) eqn:E'; try reflexivity.
    + apply str_eqb_eq in E. subst k. rewrite str_eqb_refl in E'. discriminate.
    + apply str_eqb_eq in E'. subst k. rewrite str_eqb_refl in E. discriminate.
Qed.
Lemma says_split' {T} (M : tval -> T -> Prop) kd k a kw x d v : ~ In k (map fst kw) ->
  (t_says M kd ((k, a) :: kw) x d v <-> exists y, t_says M kd [(k, a)] x d y /\ t_says M kd kw x y v).
Proof.
  intros H. rewrite (says_cons' M kd k a kw). destruct (has kd x && str_eqb (key x) k) eqn:E.
  - pose proof E as E0. apply andb_true_iff in E0 as [_ E0]. apply str_eqb_eq in E0. split.
    + intros X. exists v. split; [rewrite says_cons', E; exact X|]. apply says_other'; [rewrite E0; exact H|reflexivity].
    + intros (y & A & B). apply says_other' in B; [|rewrite E0; exact H]. subst y. rewrite says_cons', E in A. exact A.
  - split.
    + intros X. exists d. split; [rewrite says_cons', E; apply says_nil'; reflexivity|exact X].
    + intros (y & A & B). rewrite says_cons', E in A. apply says_nil' in A. subst y. exact B.
Qed.

Lemma trainer_split alpha new kd st k a kw c c' : ~ In k (map fst kw) ->
  (trainer_says_with alpha new kd st ((k, a) :: kw) c c' <->
   exists c1, trainer_says_with alpha new kd st [(k, a)] c c1 /\ trainer_says_with alpha new kd st kw c1 c').
Proof.
  intros H. unfold trainer_says_with at 1. rewrite !says_split' by exact H. split.
  - intros ((y1 & P1 & Q1) & (y2 & P2 & Q2) & (y3 & P3 & Q3) & (y4 & P4 & Q4) & (y5 & P5 & Q5) & (y6 & P6 & Q6) & (y7 & P7 & Q7) & (y8 & P8 & Q8) & (y9 & P9 & Q9) & (y10 & P10 & Q10) & X).
    exists (mkPT y2 y1 y3 y4 y5 y6 y7 y8 y9 y10 (pt_words c)). unfold trainer_says_with.
    cbn [pt_min pt_vocab pt_show pt_format pt_tokens pt_limit pt_alphabet pt_prefix pt_suffix pt_max pt_words].
    split; [|tauto]. tauto.
  - intros (c1 & (P1 & P2 & P3 & P4 & P5 & P6 & P7 & P8 & P9 & P10 & X) & (Q1 & Q2 & Q3 & Q4 & Q5 & Q6 & Q7 & Q8 & Q9 & Q10 & Y)).
    split; [exact (ex_intro _ _ (conj P1 Q1))|]. split; [exact (ex_intro _ _ (conj P2 Q2))|]. split; [exact (ex_intro _ _ (conj P3 Q3))|].
    split; [exact (ex_intro _ _ (conj P4 Q4))|]. split; [exact (ex_intro _ _ (conj P5 Q5))|]. split; [exact (ex_intro _ _ (conj P6 Q6))|].
    split; [exact (ex_intro _ _ (conj P7 Q7))|]. split; [exact (ex_intro _ _ (conj P8 Q8))|]. split; [exact (ex_intro _ _ (conj P9 Q9))|].
    split; [exact (ex_intro _ _ (conj P10 Q10))|]. congruence.
Qed.

Lemma field_keys kd k : has_field kd k = existsb (fun x => str_eqb k (key x)) (filter (fun x => negb (String.eqb x "special_tokens")) (attributes kd)).
Proof. destruct kd; unfold has_field, common_key, affix_key, bpe_key; cbn [attributes filter existsb negb String.eqb Ascii.eqb Bool.eqb]; rewrite ?orb_false_r; repeat match goal with |- context [str_eqb k (key ?x)] => let n := fresh in set (n := str_eqb k (key x)); clearbody n end; repeat match goal with b : bool |- _ => destruct b end; reflexivity. Qed.

Ltac keys :=
  repeat match goal with |- context [str_eqb (key ?a) (key ?b)] => let v := eval vm_compute in (str_eqb (key a) (key b)) in change (str_eqb (key a) (key b)) with v end.
Ltac kinds :=
  repeat match goal with |- context [has ?kd ?x] => let v := eval vm_compute in (has kd x) in change (has kd x) with v end.

Lemma same_trainer c c' :
  c' = c <-> pt_vocab c' = pt_vocab c /\ pt_min c' = pt_min c /\ pt_show c' = pt_show c /\ pt_format c' = pt_format c /\ pt_tokens c' = pt_tokens c /\
    pt_limit c' = pt_limit c /\ pt_alphabet c' = pt_alphabet c /\ pt_prefix c' = pt_prefix c /\ pt_suffix c' = pt_suffix c /\ pt_max c' = pt_max c /\ pt_words c' = pt_words c.
Proof.
  split; [intros ->; tauto|]. destruct c, c'. cbn. intros (-> & -> & -> & -> & -> & -> & -> & -> & -> & -> & ->). reflexivity.
Qed.

Lemma limit_read (new : bool) a o : (if new then t_some t_num a else t_option t_num a) = Ok o <-> (if new then given number else none_or number) a o.
Proof.
  destruct new; [apply some_read; intros x; apply number_read|apply option_read; [intros x; apply number_read|]].
  intros -> x [(?&_)|[(?&_)|(?&_)]]; discriminate.
Qed.
Lemma max_read a o : t_option t_num a = Ok o <-> none_or number a o.
Proof. apply (limit_read false). Qed.
Lemma affix_read (new : bool) a o : (if new then t_some t_str a else t_option t_str a) = Ok o <-> (if new then given a_text else none_or a_text) a o.
Proof.
  destruct new; [apply some_read; intros x; apply text_read'|apply option_read; [intros x; apply text_read'|]]. intros -> x X. discriminate.
Qed.
Lemma alphabet_read (new : bool) a cs : (if new then t_alphabet_new a else t_alphabet_set a) = Ok cs <-> exact new a cs.
Proof. destruct new; reflexivity. Qed.

(** One argument other than the special tokens. *)
Lemma field_says new kd st c k v c' : str_eqb k (key "special_tokens") = false -> has_field kd k = true ->
  (set_field new c k v = Ok c' <-> trainer_says_with (exact new) new kd st [(k, v)] c c').
Proof.
  intros ES HF. unfold trainer_says_with. rewrite !says_one'. destruct c as [mi vo sh fo sp li al pr su mx ws]. destruct c' as [mi' vo' sh' fo' sp' li' al' pr' su' mx' ws'].
  cbn [pt_min pt_vocab pt_show pt_format pt_tokens pt_limit pt_alphabet pt_prefix pt_suffix pt_max pt_words]. unfold set_field.
  repeat match goal with |- ((if str_eqb k (key ?w) then _ else _) = _) <-> _ =>
    let E := fresh "E" in destruct (str_eqb k (key w)) eqn:E; [apply str_eqb_eq in E; subst k; destruct kd; try discriminate HF; kinds; keys; cbn [andb];
      rewrite bind_ok; first [setoid_rewrite number_read|setoid_rewrite flag_read'|setoid_rewrite format_read|setoid_rewrite limit_read|setoid_rewrite alphabet_read|setoid_rewrite affix_read|setoid_rewrite max_read];
      (split; [intros (x & A & B); injection B as -> -> -> -> -> -> -> -> -> -> ->; tauto|intros H; decompose [and] H; subst; eauto])|] end.
  exfalso. rewrite field_keys in HF. destruct kd; cbn [attributes filter existsb negb String.eqb Ascii.eqb Bool.eqb] in HF;
  repeat match goal with E : str_eqb k (key _) = false |- _ => try rewrite E in HF; clear E end; cbn [orb] in HF; discriminate HF.
Qed.

Lemma one_says new kd st c k v st' c' : In k (map key (attributes kd)) \/ new = true ->
  (one_setting new kd st c k v = (st', Ok c') <->
   trainer_says_with (exact new) new kd st [(k, v)] c c' /\ marked (listed [(k, v)]) st st').
Proof.
  intros KN. unfold one_setting. destruct (str_eqb k (key "special_tokens")) eqn:ES.
  - apply str_eqb_eq in ES. subst k.
    assert (SAYS : trainer_says_with (exact new) new kd st [(key "special_tokens", v)] c c' <-> exists ts, special_list st v ts /\ c' = with_tokens c ts).
    { unfold trainer_says_with. rewrite !says_one'. keys. destruct c as [mi vo sh fo sp li al pr su mx ws]. destruct c' as [mi' vo' sh' fo' sp' li' al' pr' su' mx' ws'].
      unfold with_tokens. cbn [pt_min pt_vocab pt_show pt_format pt_tokens pt_limit pt_alphabet pt_prefix pt_suffix pt_max pt_words].
      replace (has kd "special_tokens") with true by (destruct kd; reflexivity). rewrite !andb_false_r. cbn [andb]. split.
      - intros H. exists sp'. decompose [and] H. subst. tauto.
      - intros (ts & A & B). injection B as -> -> -> -> -> -> -> -> -> -> ->. tauto. }
    rewrite SAYS. unfold listed. cbn [aget]. rewrite str_eqb_refl. unfold t_specials, special_list.
    destruct v as [|b|z|s|l|l|]; try (split; [intros X; apply (f_equal snd) in X; cbn in X; discriminate X|intros ((ts & (l0 & A & _) & _) & _); discriminate A]).
    destruct (read_specials st l) as [st1 r1] eqn:E1. split.
    + intros E. assert (X1 : st1 = st') by congruence. assert (X2 : (let! sp := r1 in Ok (with_tokens c sp)) = Ok c') by congruence. subst st1.
      apply bind_ok in X2 as (ts & -> & ->). destruct (proj1 (read_specials_ok _ _ _ _) E1) as [F M]. split; [|exact M]. exists ts. split; [|reflexivity]. exists l. split; [reflexivity|exact F].
    + intros ((ts & (l0 & A & F) & ->) & M). injection A as <-. pose proof (proj2 (read_specials_ok _ _ _ _) (conj F M)) as R. rewrite R in E1. injection E1 as <- <-. reflexivity.
  - assert (LI : listed [(k, v)] = []).
    { unfold listed. cbn [aget]. destruct (str_eqb (key "special_tokens") k) eqn:E; [|reflexivity]. apply str_eqb_eq in E. subst k. rewrite str_eqb_refl in ES. discriminate. }
    rewrite LI. destruct (has_field kd k) eqn:HF.
    + rewrite <- (field_says new kd st c k v c' ES HF). split.
      * intros E. split; [congruence|]. replace st' with st by congruence. apply marked_nil.
      * intros (A & M). rewrite A, (marked_fun _ _ _ _ M (marked_nil st)). reflexivity.
    + assert (NN : new = true).
      { destruct KN as [KN|KN]; [|exact KN]. exfalso. rewrite field_keys in HF. apply in_map_iff in KN as (x & <- & IN).
        assert (X : existsb (fun x0 => str_eqb (key x) (key x0)) (filter (fun x0 => negb (String.eqb x0 "special_tokens")) (attributes kd)) = true).
        { apply existsb_exists. exists x. split; [|apply str_eqb_refl]. apply filter_In. split; [exact IN|]. destruct (String.eqb x "special_tokens") eqn:E; [|reflexivity].
          apply String.eqb_eq in E. subst x. rewrite str_eqb_refl in ES. discriminate. }
        congruence. }
      subst new.
      assert (NO : forall x, has kd x && str_eqb k (key x) = false).
      { intros x. destruct (has kd x) eqn:EH; [|reflexivity]. destruct (str_eqb k (key x)) eqn:EK; [|reflexivity]. exfalso.
        unfold has in EH. apply existsb_exists in EH as (y & IN & EY). apply String.eqb_eq in EY. subst y. rewrite field_keys in HF.
        assert (X : existsb (fun x0 => str_eqb k (key x0)) (filter (fun x0 => negb (String.eqb x0 "special_tokens")) (attributes kd)) = true).
        { apply existsb_exists. exists x. split; [|exact EK]. apply filter_In. split; [exact IN|]. destruct (String.eqb x "special_tokens") eqn:E; [|reflexivity].
          apply String.eqb_eq in E. subst x. congruence. }
        congruence. }
      unfold trainer_says_with. rewrite !says_one', !NO. rewrite <- (same_trainer c c'). split.
      * intros E. split; [congruence|]. replace st' with st by congruence. apply marked_nil.
      * intros (A & M). subst c'. rewrite (marked_fun _ _ _ _ M (marked_nil st)). reflexivity.
Qed.

(** The constructor. *)
Lemma says_store alpha new kd st st' kw c c' : ~ In (key "special_tokens") (map fst kw) ->
  (trainer_says_with alpha new kd st kw c c' <-> trainer_says_with alpha new kd st' kw c c').
Proof.
  intros H. unfold trainer_says_with. rewrite (says_other' (special_list st)) by exact H. rewrite (says_other' (special_list st')) by exact H. reflexivity.
Qed.
Lemma listed_cons k v kw : ~ In k (map fst kw) ->
  listed ((k, v) :: kw) = if str_eqb k (key "special_tokens") then listed [(k, v)] else listed kw.
Proof.
  intros H. unfold listed. cbn [aget]. destruct (str_eqb k (key "special_tokens")) eqn:E.
  - apply str_eqb_eq in E. subst k. rewrite str_eqb_refl. reflexivity.
  - destruct (str_eqb (key "special_tokens") k) eqn:E'; [|reflexivity]. apply str_eqb_eq in E'. subst k. rewrite str_eqb_refl in E. discriminate.
Qed.
Lemma listed_absent kw : ~ In (key "special_tokens") (map fst kw) -> listed kw = [].
Proof.
  intros H. unfold listed. destruct (aget str_eqb (key "special_tokens") kw) as [a|] eqn:E; [|reflexivity]. apply (aget_In str_eqb str_eqb_eq) in E. apply (in_map fst) in E. tauto.
Qed.
Lemma listed_other k v : str_eqb k (key "special_tokens") = false -> listed [(k, v)] = [].
Proof. intros H. apply listed_absent. intros [E|[]]. cbn in E. subst k. rewrite str_eqb_refl in H. discriminate. Qed.

Lemma settings_say kd kw : forall st c st' c', NoDup (map fst kw) ->
  (settings kd st c kw = (st', Ok c') <-> trainer_says_with (exact true) true kd st kw c c' /\ marked (listed kw) st st').
Proof.
  induction kw as [|[k v] kw IH]; intros st c st' c' ND; cbn [settings].
  - unfold trainer_says_with. rewrite !says_nil', <- (same_trainer c c'). split.
    + intros E. split; [congruence|]. replace st' with st by congruence. apply marked_nil.
    + intros (-> & M). rewrite (marked_fun _ _ _ _ M (marked_nil st)). reflexivity.
  - cbn [map fst] in ND. inversion ND as [|? ? NI ND']; subst. rewrite trainer_split by exact NI. rewrite (listed_cons k v kw NI).
    destruct (one_setting true kd st c k v) as [st1 r1] eqn:E1.
    assert (ONE : forall st2 c2, one_setting true kd st c k v = (st2, Ok c2) <-> trainer_says_with (exact true) true kd st [(k, v)] c c2 /\ marked (listed [(k, v)]) st st2) by (intros; apply one_says; right; reflexivity).
    split.
    + intros E. destruct r1 as [c1|e|]; try discriminate. pose proof (proj1 (ONE _ _) E1) as [S1 M1]. pose proof (proj1 (IH _ _ _ _ ND') E) as [S2 M2].
      destruct (str_eqb k (key "special_tokens")) eqn:ES.
      * apply str_eqb_eq in ES. subst k. rewrite (listed_absent kw NI) in M2. rewrite (marked_fun _ _ _ _ M2 (marked_nil st1)). split; [|exact M1]. exists c1. split; [exact S1|]. apply (says_store _ _ _ _ st1); [exact NI|exact S2].
      * rewrite (listed_other k v ES) in M1. rewrite (marked_fun _ _ _ _ M1 (marked_nil st)) in *. split; [exists c1; tauto|exact M2].
    + intros ((c1 & S1 & S2) & M). destruct (str_eqb k (key "special_tokens")) eqn:ES.
      * apply str_eqb_eq in ES. subst k. pose proof (proj2 (ONE st' c1) (conj S1 M)) as X. rewrite X in E1. injection E1 as <- <-. apply IH; [exact ND'|]. rewrite (listed_absent kw NI). split; [|apply marked_nil]. apply (says_store _ _ _ st); [exact NI|exact S2].
      * assert (M0 : marked (listed [(k, v)]) st st) by (rewrite (listed_other k v ES); apply marked_nil). pose proof (proj2 (ONE st c1) (conj S1 M0)) as X. rewrite X in E1. injection E1 as <- <-. apply IH; [exact ND'|]. split; [exact S2|exact M].
Qed.
