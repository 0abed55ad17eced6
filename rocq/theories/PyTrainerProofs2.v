(** Proofs about the trainers as Python objects: errors, histories and pickles. *)
From Coq Require Import ZArith String.
From Verif Require Import Base StrBytes AMap AddedModel PySettingsModel ModelFilesModel ComponentFilesModel ComponentFilesProofs PyModelModel PyModelProofs PyTrainerModel PyTrainerSpec PyTrainerProofs.

Lemma marked_skip e l st st' : (forall r p, e = EToken r -> nth_error st r = Some p -> False) -> marked l st st' -> marked (e :: l) st st'.
Proof.
  intros H (A & B). split; [exact A|]. intros r p E. destruct (B r p E) as [[C D]|[C D]].
  - left. split; [right; exact C|exact D].
  - right. split; [intros [X|X]; [exact (H r p X E)|tauto]|exact D].
Qed.
Lemma marked_exists l : forall st, exists st', marked l st st'.
Proof.
  induction l as [|e l IH]; intros st; [exists st; apply marked_nil|]. destruct e as [s|k|].
  - destruct (IH st) as (st' & M). exists st'. apply marked_skip; [intros; discriminate|exact M].
  - destruct (nth_error st k) as [p|] eqn:E.
    + destruct (IH (mark_at k st)) as (st' & M). exists st'. exact (proj2 (marked_token k l st st' p E) M).
    + destruct (IH st) as (st' & M). exists st'. apply marked_skip; [|exact M]. intros r p X Y. injection X as ->. congruence.
  - destruct (IH st) as (st' & M). exists st'. apply marked_skip; [intros; discriminate|exact M].
Qed.

(** The alphabet as a set. *)
Definition with_alphabet (c : pt) (al : list char) : pt :=
  mkPT (pt_min c) (pt_vocab c) (pt_show c) (pt_format c) (pt_tokens c) (pt_limit c) al (pt_prefix c) (pt_suffix c) (pt_max c) (pt_words c).
Lemma exact_says new kd st kw c c' : trainer_says_with (exact new) new kd st kw c c' -> trainer_says new kd st kw c c'.
Proof.
  unfold trainer_says, trainer_says_with. intros (P1 & P2 & P3 & P4 & P5 & P6 & P7 & P8).
  split; [exact P1|]. split; [exact P2|]. split; [exact P3|]. split; [exact P4|]. split; [exact P5|]. split; [exact P6|]. split; [|exact P8].
  clear - P7. unfold t_says in *. destruct (if existsb _ _ then _ else _) as [a|]; [|exact P7]. apply exact_meaning. exact P7.
Qed.
Lemma says_exact new kd st kw c c' : trainer_says new kd st kw c c' -> exists al, trainer_says_with (exact new) new kd st kw c (with_alphabet c' al).
Proof.
  unfold trainer_says, trainer_says_with. intros (P1 & P2 & P3 & P4 & P5 & P6 & P7 & P8).
  assert (X : exists al, t_says (exact new) kd kw "initial_alphabet" (pt_alphabet c) al).
  { clear - P7. unfold t_says in *. destruct (if existsb _ _ then _ else _) as [a|]; [|eauto]. exact (meaning_exact new a _ P7). }
  destruct X as (al & X). exists al.
  split; [exact P1|]. split; [exact P2|]. split; [exact P3|]. split; [exact P4|]. split; [exact P5|]. split; [exact P6|]. split; [exact X|exact P8].
Qed.

(** ** Errors *)
Lemma t_num_calm v : t_num v <> Panic.
Proof. destruct v as [|b|z|s|l|l|]; cbn [t_num]; try discriminate. destruct (_ && _); discriminate. Qed.
Lemma t_str_calm v : t_str v <> Panic.
Proof. destruct v; discriminate. Qed.
Lemma t_bool_calm v : t_bool v <> Panic.
Proof. destruct v; discriminate. Qed.
Lemma bind_calm {A B} (r : res pm_error A) (f : A -> B) : r <> Panic -> (let! x := r in Ok (f x)) <> Panic.
Proof. destruct r; cbn [bind]; congruence. Qed.
Lemma t_option_calm {T} (read : tval -> res pm_error T) v : read v <> Panic -> t_option read v <> Panic.
Proof. intros H. destruct v; cbn [t_option]; try discriminate; apply bind_calm; exact H. Qed.
Lemma texts_calm l : map_res e_text l <> Panic.
Proof. induction l as [|e l IH]; cbn [map_res]; [discriminate|]. destruct e; cbn [e_text bind]; try discriminate. apply bind_calm. exact IH. Qed.
Lemma chars_calm l : map_res e_char l <> Panic.
Proof. induction l as [|e l IH]; cbn [map_res]; [discriminate|]. destruct e as [[|c [|d s]]|r|]; cbn [e_char bind]; try discriminate. apply bind_calm. exact IH. Qed.
Lemma alphabet_calm (new : bool) v : (if new then t_alphabet_new v else t_alphabet_set v) <> Panic.
Proof.
  destruct new; unfold t_alphabet_new, t_alphabet_set; destruct v as [|b|z|s|l|l|]; cbn [t_seq bind]; try discriminate; apply bind_calm; first [apply texts_calm|apply chars_calm].
Qed.
Lemma set_field_calm new c k v : set_field new c k v <> Panic.
Proof.
  destruct c. unfold set_field.
  repeat match goal with |- (if str_eqb k (key ?w) then _ else _) <> _ => destruct (str_eqb k (key w)); [apply bind_calm|] end; try discriminate.
  - apply t_num_calm.
  - apply t_num_calm.
  - apply t_bool_calm.
  - unfold t_format. apply bind_calm, t_str_calm.
  - destruct new; [apply bind_calm, t_num_calm|apply t_option_calm, t_num_calm].
  - apply alphabet_calm.
  - destruct new; [apply bind_calm, t_str_calm|apply t_option_calm, t_str_calm].
  - destruct new; [apply bind_calm, t_str_calm|apply t_option_calm, t_str_calm].
  - apply t_option_calm, t_num_calm.
Qed.
Lemma one_calm new kd st c k v : snd (one_setting new kd st c k v) <> Panic.
Proof.
  unfold one_setting. destruct (str_eqb k _).
  - destruct v as [|b|z|s|l|l|]; cbn [t_specials snd bind]; try discriminate. pose proof (read_specials_calm l st) as H. destruct (read_specials st l) as [st1 r1]. cbn [snd] in *. apply bind_calm. exact H.
  - destruct (has_field kd k); cbn [snd]; [apply set_field_calm|destruct new; discriminate].
Qed.
Lemma settings_calm kd kw : forall st c, snd (settings kd st c kw) <> Panic.
Proof.
  induction kw as [|[k v] kw IH]; intros st c; cbn [settings]; [discriminate|]. pose proof (one_calm true kd st c k v) as H.
  destruct (one_setting true kd st c k v) as [st1 [c1|e|]]; cbn [snd] in *; [apply IH|discriminate|congruence].
Qed.
Lemma one_store new kd st c k v st' r : one_setting new kd st c k v = (st', r) -> exists l1 l2, listed [(k, v)] = l1 ++ l2 /\ marked l1 st st'.
Proof.
  unfold one_setting. destruct (str_eqb k (key "special_tokens")) eqn:ES.
  - apply str_eqb_eq in ES. subst k. unfold listed. cbn [aget]. rewrite str_eqb_refl.
    destruct v as [|b|z|s|l|l|]; cbn [t_specials]; try (intros E; replace st' with st by congruence; exists [], []; split; [reflexivity|apply marked_nil]).
    destruct (read_specials st l) as [st1 r1] eqn:E1. intros E. replace st' with st1 by congruence. exact (read_specials_store l st st1 r1 E1).
  - intros E. rewrite (listed_other k v ES). exists [], []. split; [reflexivity|]. replace st' with st by (destruct (has_field kd k); congruence). apply marked_nil.
Qed.
Lemma settings_store kd kw : forall st c st' r, NoDup (map fst kw) -> settings kd st c kw = (st', r) -> exists l1 l2, listed kw = l1 ++ l2 /\ marked l1 st st'.
Proof.
  induction kw as [|[k v] kw IH]; intros st c st' r ND; cbn [settings].
  - intros E. exists [], []. split; [reflexivity|]. replace st' with st by congruence. apply marked_nil.
  - cbn [map fst] in ND. inversion ND as [|? ? NI ND']; subst. rewrite (listed_cons k v kw NI).
    destruct (one_setting true kd st c k v) as [st1 r1] eqn:E1. destruct (str_eqb k (key "special_tokens")) eqn:ES.
    + apply str_eqb_eq in ES. subst k. destruct (one_store _ _ _ _ _ _ _ _ E1) as (l1 & l2 & L & M).
      destruct r1 as [c1|e|]; intros E.
      * destruct (IH _ _ _ _ ND' E) as (a & b & L2 & M2). rewrite (listed_absent kw NI) in L2. symmetry in L2. apply app_eq_nil in L2 as [-> ->]. rewrite (marked_fun _ _ _ _ M2 (marked_nil st1)). eauto.
      * replace st' with st1 by congruence. eauto.
      * replace st' with st1 by congruence. eauto.
    + destruct (one_store _ _ _ _ _ _ _ _ E1) as (l1 & l2 & L & M). rewrite (listed_other k v ES) in L. symmetry in L. apply app_eq_nil in L as [-> ->]. rewrite (marked_fun _ _ _ _ M (marked_nil st)) in *.
      destruct r1 as [c1|e|]; intros E.
      * exact (IH _ _ _ _ ND' E).
      * exists [], (listed kw). split; [reflexivity|]. replace st' with st by congruence. apply marked_nil.
      * exists [], (listed kw). split; [reflexivity|]. replace st' with st by congruence. apply marked_nil.
Qed.

(** ** Histories *)
Lemma sound0 kd : sound kd (pt0 kd).
Proof.
  constructor; [constructor|constructor|reflexivity|reflexivity|intros n E; discriminate E|intros n E; discriminate E|intros _; split; reflexivity|].
  intros ->. repeat split.
Qed.
Lemma says_or {T} (M : tval -> T -> Prop) kd kw x d v : t_says M kd kw x d v -> v = d \/ exists a, M a v.
Proof. unfold t_says. destruct (if existsb _ _ then _ else _); eauto. Qed.
Lemma says_hasnt {T} (M : tval -> T -> Prop) kd kw x d v : has kd x = false -> t_says M kd kw x d v -> v = d.
Proof. unfold t_says, has. intros ->. tauto. Qed.
Lemma number_small a n : number a n -> (n < 2 ^ 64)%N.
Proof. intros [(_ & H)|[(_ & ->)|(_ & ->)]]; [exact H|reflexivity|reflexivity]. Qed.
Lemma given_small a o : given number a o -> small o.
Proof. intros (x & -> & H) n E. injection E as <-. exact (number_small _ _ H). Qed.
Lemma none_or_small a o : none_or number a o -> small o.
Proof. intros [(_ & ->)|H]; [intros n E; discriminate|exact (given_small _ _ H)]. Qed.
Lemma special_list_special st a ts : special_list st a ts -> Forall (fun t => at_special t = true) ts.
Proof.
  intros (l & _ & F). induction F as [|e t l' ts' H F IH]; constructor; [|exact IH]. destruct e as [s|r|]; cbn [special_token] in H; [subst; reflexivity|destruct H as (p & _ & ->); reflexivity|destruct H].
Qed.
Lemma says_sound new kd st kw c c' : sound kd c -> trainer_says new kd st kw c c' -> sound kd c'.
Proof.
  intros [S1 S2 S3 S4 S5 S6 S7 S8] (P1 & P2 & P3 & P4 & P5 & P6 & P7 & P8 & P9 & P10 & _). constructor.
  - apply says_or in P5 as [->|(a & A)]; [exact S1|exact (special_list_special _ _ _ A)].
  - apply says_or in P7 as [->|(a & A)]; [exact S2|]. destruct new; destruct A as (ss & _ & A & _); exact A.
  - apply says_or in P1 as [->|(a & A)]; [exact S3|exact (number_small _ _ A)].
  - apply says_or in P2 as [->|(a & A)]; [exact S4|exact (number_small _ _ A)].
  - apply says_or in P6 as [->|(a & A)]; [exact S5|]. destruct new; [exact (given_small _ _ A)|exact (none_or_small _ _ A)].
  - apply says_or in P10 as [->|(a & A)]; [exact S6|exact (none_or_small _ _ A)].
  - intros NK. destruct (S7 NK) as [A B].
    assert (H1 : has kd "progress_format" = false) by (destruct kd; [congruence|reflexivity|reflexivity]).
    assert (H2 : has kd "max_token_length" = false) by (destruct kd; [congruence|reflexivity|reflexivity]).
    rewrite (says_hasnt _ _ _ _ _ _ H1 P4), (says_hasnt _ _ _ _ _ _ H2 P10). tauto.
  - intros ->. destruct (S8 eq_refl) as (A & B & C & D).
    assert (H : forall x, In x ["limit_alphabet"; "initial_alphabet"; "continuing_subword_prefix"; "end_of_word_suffix"]%string -> has KWordLevel x = false) by (intros x [<-|[<-|[<-|[<-|[]]]]]; reflexivity).
    apply says_hasnt in P6, P7, P8, P9; [|apply H; cbn; tauto..]. rewrite P6, P7, P8, P9. tauto.
Qed.

Lemma one_sound kd st c k v st' c' : sound kd c -> one_setting false kd st c k v = (st', Ok c') -> sound kd c'.
Proof.
  intros S E. assert (IN : In k (map key (attributes kd))).
  { unfold one_setting in E. destruct (str_eqb k (key "special_tokens")) eqn:ES; [apply str_eqb_eq in ES; subst k; apply in_map; destruct kd; cbn; tauto|].
    destruct (has_field kd k) eqn:HF; [|apply (f_equal snd) in E; discriminate E]. rewrite field_keys in HF. apply existsb_exists in HF as (x & A & B). apply filter_In in A as [A _]. apply str_eqb_eq in B. subst k. apply in_map. exact A. }
  destruct (proj1 (one_says false kd st c k v st' c' (or_introl IN)) E) as [T _]. apply exact_says in T. exact (says_sound _ _ _ _ _ _ S T).
Qed.
Lemma assigns_sound kd l : forall st c, sound kd c -> sound kd (snd (assigns kd st c l)).
Proof.
  induction l as [|[k v] l IH]; intros st c S; cbn [assigns]; [exact S|].
  destruct (one_setting false kd st c k v) as [st1 [c1|e|]] eqn:E; apply IH; [exact (one_sound _ _ _ _ _ _ _ S E)|exact S|exact S].
Qed.

(** Assigning to an attribute what it gives. *)
Lemma get_of_token t : at_special t = true -> get_token (of_token t) = t.
Proof. destruct t. cbn. intros ->. reflexivity. Qed.
Lemma reread_specials ts : forall pre, Forall (fun t => at_special t = true) ts ->
  Forall2 (special_token (pre ++ map of_token ts)) (map EToken (seq (List.length pre) (List.length ts))) ts.
Proof.
  induction ts as [|t ts IH]; intros pre F; cbn [List.length seq map]; [constructor|]. inversion F as [|? ? H0 F']; subst. constructor.
  - exists (of_token t). split; [rewrite nth_error_app2, Nat.sub_diag by lia; reflexivity|]. destruct t. cbn in *. subst. reflexivity.
  - specialize (IH (pre ++ [of_token t]) F'). rewrite <- app_assoc in IH. cbn [app] in IH. rewrite app_length in IH. cbn [List.length] in IH. rewrite Nat.add_1_r in IH. exact IH.
Qed.
Lemma marked_same l st : (forall r p, In (EToken r) l -> nth_error st r = Some p -> as_special p = p) -> marked l st st.
Proof.
  intros H. split; [reflexivity|]. intros r p E. destruct (elem_in r l) as [IN|NI]; [left|right]; (split; [assumption|]); [rewrite (H r p IN E)|]; exact E.
Qed.
Lemma reassigned kd st c k st1 v : sound kd c -> In k (map key (attributes kd)) -> get_attr st c k = (st1, v) -> one_setting false kd st1 c k v = (st1, Ok c).
Proof.
  intros [S1 S2 S3 S4 S5 S6 S7 S8] IN G. unfold get_attr in G. unfold one_setting. destruct (str_eqb k (key "special_tokens")) eqn:ES.
  - injection G as <- <-. cbn [t_specials].
    assert (R : read_specials (st ++ map of_token (pt_tokens c)) (map EToken (seq (List.length st) (List.length (pt_tokens c)))) = (st ++ map of_token (pt_tokens c), Ok (pt_tokens c))).
    { apply (proj2 (read_specials_ok _ _ _ _)). split; [apply reread_specials; exact S1|]. apply marked_same. intros r p A B. apply in_map_iff in A as (x & X & A). injection X as ->. apply in_seq in A.
      rewrite nth_error_app2 in B by lia. rewrite nth_error_map in B. destruct (nth_error (pt_tokens c) (r - List.length st)) as [t|] eqn:E; [|discriminate]. injection B as <-.
      rewrite Forall_forall in S1. specialize (S1 t (nth_error_In _ _ E)). destruct t. cbn in *. subst. reflexivity. }
    rewrite R. cbn [bind]. destruct c. reflexivity.
  - assert (HF : has_field kd k = true).
    { rewrite field_keys. apply in_map_iff in IN as (x & <- & IN). apply existsb_exists. exists x. split; [|apply str_eqb_refl]. apply filter_In. split; [exact IN|]. destruct (String.eqb x "special_tokens") eqn:E; [|reflexivity]. apply String.eqb_eq in E. subst x. rewrite str_eqb_refl in ES. discriminate. }
    rewrite HF. injection G as <- <-. f_equal.
    assert (NUM : forall n, (n < 2 ^ 64)%N -> t_num (TInt (Z.of_N n)) = Ok n) by (intros n L; apply number_read; left; split; [reflexivity|exact L]).
    assert (ONUM : forall o, small o -> t_option t_num (num_val o) = Ok o) by (intros [n|] L; cbn [num_val t_option]; [rewrite (NUM n (L n eq_refl))|]; reflexivity).
    assert (OSTR : forall o, t_option t_str (str_val o) = Ok o) by (intros [s|]; reflexivity).
    assert (ALPH : t_alphabet_set (TList (map (fun ch => EText [ch]) (pt_alphabet c))) = Ok (pt_alphabet c)).
    { unfold t_alphabet_set. cbn [t_seq bind]. rewrite (proj2 (chars_read _ (pt_alphabet c)) eq_refl). cbn [bind]. rewrite nodup_fixed_point by exact S2. reflexivity. }
    destruct c as [mi vo sh fo sp li al pr su mx ws]. cbn [pt_min pt_vocab pt_show pt_format pt_tokens pt_limit pt_alphabet pt_prefix pt_suffix pt_max pt_words] in *. unfold set_field.
    repeat match goal with |- (if str_eqb k (key ?w) then _ else _) = _ => destruct (str_eqb k (key w)) eqn:?; [try (rewrite ?NUM, ?ONUM, ?OSTR, ?ALPH by assumption; reflexivity)|] end; try reflexivity.
    destruct fo; reflexivity.
Qed.

(** ** Pickles *)
Section pickles.
  Context {W : Type}.
  Lemma added_back t : as_added_token (W := W) (of_added_token t) = Ok t.
  Proof. destruct t. reflexivity. Qed.
  Lemma addeds_back ts : as_vec (W := W) as_added_token (JArr (map of_added_token ts)) = Ok ts.
  Proof. cbn [as_vec]. induction ts as [|t ts IH]; [reflexivity|]. cbn [map map_res]. rewrite added_back. cbn [bind]. rewrite IH. reflexivity. Qed.
  Lemma alphabet_back cs : as_vec (W := W) as_char (JArr (map (fun ch => JStr [ch]) cs)) = Ok cs.
  Proof. cbn [as_vec]. induction cs as [|c cs IH]; [reflexivity|]. cbn [map map_res as_char bind]. rewrite IH. reflexivity. Qed.
  Lemma num_back n : (n < 2 ^ 64)%N -> as_usize (W := W) (JInt n) = Ok n.
  Proof. intros H. unfold as_usize. apply N.ltb_lt in H. rewrite H. reflexivity. Qed.
  Lemma words_into ws : forall m, NoDup (map fst (m ++ ws)) -> Forall (fun wn => (snd wn < 2 ^ 64)%N) ws ->
    into_words (W := W) (map (fun wn => (fst wn, JInt (snd wn))) ws) m = Ok (m ++ ws).
  Proof.
    induction ws as [|[w n] ws IH]; intros m ND F; cbn [map into_words]; [rewrite app_nil_r; reflexivity|]. inversion F as [|? ? L F']; subst. cbn [fst snd] in *. rewrite num_back by exact L. cbn [bind].
    assert (AS : aset str_eqb w n m = m ++ [(w, n)]).
    { rewrite map_app in ND. cbn [map fst] in ND. apply NoDup_remove_2 in ND. assert (NI : ~ In w (map fst m)) by (intros X; apply ND, in_or_app; left; exact X). clear - NI.
      induction m as [|[a b] m IH]; [reflexivity|]. cbn [aset app]. destruct (str_eqb w a) eqn:E; [apply str_eqb_eq in E; subst; exfalso; apply NI; left; reflexivity|]. rewrite IH; [reflexivity|]. intros X. apply NI. right. exact X. }
    rewrite AS, IH; [rewrite <- app_assoc; reflexivity|rewrite <- app_assoc; exact ND|exact F'].
  Qed.
  Lemma words_back ws : NoDup (map fst ws) -> Forall (fun wn => (snd wn < 2 ^ 64)%N) ws -> as_words (W := W) (of_words ws) = Ok ws.
  Proof. intros ND F. unfold of_words, as_words. apply (words_into ws []); assumption. Qed.
  Lemma onum_back o : small o -> as_option (W := W) as_usize (of_num o) = Ok o.
  Proof. destruct o as [n|]; intros S; cbn [of_num as_option]; [rewrite (num_back n (S n eq_refl))|]; reflexivity. Qed.
  Lemma ostr_back o : as_option (W := W) as_str (of_option_str o) = Ok o.
  Proof. destruct o; reflexivity. Qed.
  Lemma format_back f : as_format (W := W) (of_format f) = Ok f.
  Proof. destruct f; reflexivity. Qed.
  Lemma may_at {T} k (read : json W -> res file_error T) l v : field k l = Ok (Some v) -> may k read l = as_option read v.
  Proof. intros H. unfold may. rewrite H. reflexivity. Qed.

  Lemma bpe_back kd c : sound kd c -> NoDup (map fst (pt_words c)) -> Forall (fun wn => (snd wn < 2 ^ 64)%N) (pt_words c) ->
    bpe_trainer_of_json (W := W) (bpe_trainer_to_json c) = Ok c.
  Proof.
    intros [S1 S2 S3 S4 S5 S6 S7 S8] ND F. destruct c as [mi vo sh fo sp li al pr su mx ws]. cbn [pt_min pt_vocab pt_show pt_format pt_tokens pt_limit pt_alphabet pt_prefix pt_suffix pt_max pt_words] in *.
    unfold bpe_trainer_of_json, bpe_trainer_to_json. cbn [pt_min pt_vocab pt_show pt_format pt_tokens pt_limit pt_alphabet pt_prefix pt_suffix pt_max pt_words].
    rewrite (need_at "min_frequency" _ _ (JInt mi)) by reflexivity. rewrite num_back by assumption. cbn [bind].
    rewrite (need_at "vocab_size" _ _ (JInt vo)) by reflexivity. rewrite num_back by assumption. cbn [bind].
    rewrite (need_at "show_progress" _ _ (JBool sh)) by reflexivity. cbn [bind as_bool].
    rewrite (need_at "progress_format" _ _ (of_format fo)) by reflexivity. rewrite format_back. cbn [bind].
    rewrite (need_at "special_tokens" _ _ (JArr (map of_added_token sp))) by reflexivity. rewrite addeds_back. cbn [bind].
    rewrite (may_at "limit_alphabet" _ _ (of_num li)) by reflexivity. rewrite onum_back by assumption. cbn [bind].
    rewrite (need_at "initial_alphabet" _ _ (JArr (map (fun ch => JStr [ch]) al))) by reflexivity. rewrite alphabet_back. cbn [bind].
    rewrite (may_at "continuing_subword_prefix" _ _ (of_option_str pr)) by reflexivity. rewrite ostr_back. cbn [bind].
    rewrite (may_at "end_of_word_suffix" _ _ (of_option_str su)) by reflexivity. rewrite ostr_back. cbn [bind].
    rewrite (may_at "max_token_length" _ _ (of_num mx)) by reflexivity. rewrite onum_back by assumption. cbn [bind].
    rewrite (need_at "words" _ _ (of_words ws)) by reflexivity. rewrite words_back by assumption. cbn [bind].
    rewrite nodup_fixed_point by assumption. reflexivity.
  Qed.
  Lemma state_back kd c : sound kd c -> NoDup (map fst (pt_words c)) -> Forall (fun wn => (snd wn < 2 ^ 64)%N) (pt_words c) ->
    trainer_of_state (W := W) (trainer_state kd c) = Ok (kd, c).
  Proof.
    intros S ND F. pose proof (bpe_back kd c S ND F) as B. destruct kd; unfold trainer_state, trainer_of_state; keys; cbn iota.
    - rewrite B. reflexivity.
    - rewrite (need_at "bpe_trainer" _ _ (bpe_trainer_to_json c)) by reflexivity. rewrite B. reflexivity.
    - destruct S as [S1 S2 S3 S4 S5 S6 S7 S8]. destruct (S8 eq_refl) as (E1 & E2 & E3 & E4). destruct (S7 ltac:(discriminate)) as [E5 E6].
      destruct c as [mi vo sh fo sp li al pr su mx ws]. cbn [pt_min pt_vocab pt_show pt_format pt_tokens pt_limit pt_alphabet pt_prefix pt_suffix pt_max pt_words] in *. subst.
      unfold wl_trainer_of_json, wl_trainer_to_json. cbn [pt_min pt_vocab pt_show pt_format pt_tokens pt_limit pt_alphabet pt_prefix pt_suffix pt_max pt_words].
      rewrite (need_at "min_frequency" _ _ (JInt mi)) by reflexivity. rewrite num_back by assumption. cbn [bind].
      rewrite (need_at "vocab_size" _ _ (JInt vo)) by reflexivity. rewrite num_back by assumption. cbn [bind].
      rewrite (need_at "show_progress" _ _ (JBool sh)) by reflexivity. cbn [bind as_bool].
      rewrite (need_at "special_tokens" _ _ (JArr (map of_added_token sp))) by reflexivity. rewrite addeds_back. cbn [bind].
      rewrite (need_at "words" _ _ (of_words ws)) by reflexivity. rewrite words_back by assumption. reflexivity.
  Qed.
End pickles.
