(** Proofs about saving and loading models. *)
From Coq Require Import String.
From Verif Require Import Base StrBytes ListFacts Utf8 AMap EncodingModel BpeWordModel BpeWordSpec BpeModel BpeSpec BpeProofs WordPieceModel UnigramModel ModelFilesModel ModelFilesSpec.

(** ** Fields in any order *)
Lemma each_field_perm {W S} (f : S -> str * json W -> res file_error S) :
  (forall st a b, fst a <> fst b -> (let! s := f st a in f s b) = (let! s := f st b in f s a)) ->
  forall l l', Permutation l l' -> NoDup (map fst l) -> forall st, each_field f st l = each_field f st l'.
Proof.
  intros C l l' P. induction P as [|x l l' P IH|x y l|l l' l'' P1 IH1 P2 IH2]; intros D st; [reflexivity| | |].
  - cbn [each_field map] in *. inversion D; subst. destruct (f st x); cbn [bind]; auto.
  - cbn [each_field map] in *. inversion D as [|? ? D1 D2]; subst. inversion D2; subst.
    assert (N : fst y <> fst x) by (intros E; apply D1; left; auto). specialize (C st y x N).
    destruct (f st y) as [s1|e1|] eqn:E1, (f st x) as [s2|e2|] eqn:E2; cbn [bind] in *; rewrite ?C; try (destruct (f s2 y)); try (destruct (f s1 x)); cbn [bind] in *; congruence.
  - rewrite IH1 by exact D. apply IH2. apply (Permutation_NoDup (Permutation_map fst P1) D).
Qed.

Ltac keys k := repeat match goal with |- context [str_eqb k ?x] => let E := fresh in destruct (str_eqb k x) eqn:E; [apply str_eqb_eq in E; subst k|] end.

Lemma as_no_panic : forall W (F : floats W), (forall j, @as_bool W j <> Panic) /\ (forall j, @as_str W j <> Panic) /\ (forall j, @as_u32 W j <> Panic) /\ (forall j, @as_usize W j <> Panic) /\ (forall j, as_float F j <> Panic).
Proof.
  intros W F. repeat split; intros []; cbn; try discriminate; destruct (N.ltb _ _); discriminate.
Qed.
Lemma map_res_no_panic {E A B} (f : A -> res E B) l : (forall a, f a <> Panic) -> map_res f l <> Panic.
Proof. intros H. induction l as [|a l IH]; cbn; [discriminate|]. specialize (H a). destruct (f a); cbn; [|discriminate|congruence]. destruct (map_res f l); cbn; congruence. Qed.
Lemma as_option_no_panic {W T} (read : json W -> res file_error T) j : (forall j, read j <> Panic) -> as_option read j <> Panic.
Proof. intros H. unfold as_option. specialize (H j). destruct j; try discriminate; destruct (read _); cbn; congruence. Qed.
Lemma as_pair_no_panic {W S T} (r1 : json W -> res file_error S) (r2 : json W -> res file_error T) j : (forall j, r1 j <> Panic) -> (forall j, r2 j <> Panic) -> as_pair r1 r2 j <> Panic.
Proof.
  intros H1 H2. unfold as_pair. destruct j as [| | | | |[|a [|b [|]]]|]; try discriminate. specialize (H1 a). specialize (H2 b).
  destruct (r1 a); cbn; [|discriminate|congruence]. destruct (r2 b); cbn; congruence.
Qed.
Lemma as_vec_no_panic {W T} (read : json W -> res file_error T) j : (forall j, read j <> Panic) -> as_vec read j <> Panic.
Proof. intros H. unfold as_vec. destruct j; try discriminate. apply map_res_no_panic. exact H. Qed.
Lemma into_map_no_panic {W} (l : list (str * json W)) : forall m, into_map l m <> Panic.
Proof.
  induction l as [|[t v] l IH]; intros m; cbn [into_map]; [discriminate|]. destruct v; cbn; try discriminate. destruct (N.ltb _ _); cbn [bind]; [apply IH|discriminate].
Qed.
Lemma as_map_no_panic {W} (j : json W) : as_map j <> Panic.
Proof. destruct j; cbn; try discriminate. apply into_map_no_panic. Qed.
Lemma as_merge_type_no_panic {W} (j : json W) : as_merge_type j <> Panic.
Proof.
  unfold as_merge_type. pose proof (as_vec_no_panic (@as_str W) j) as H. destruct (as_vec (as_pair as_str as_str) j); [discriminate| |];
    (destruct (as_vec as_str j); cbn; try discriminate; exfalso; apply H; [|reflexivity]; intros []; discriminate).
Qed.

Lemma err_unique (a b : file_error) : a = b.
Proof. destruct a, b. reflexivity. Qed.

(** Reading twice is symmetric when there is one kind of error. *)
Lemma read_swap {A B C} (x : res file_error A) (y : res file_error B) (k : A -> B -> res file_error C) : x <> Panic -> y <> Panic ->
  (let! a := x in let! b := y in k a b) = (let! b := y in let! a := x in k a b).
Proof. intros X Y. destruct x as [a|[]|], y as [b|[]|]; cbn; try reflexivity; congruence. Qed.

Ltac known k := match goal with |- context [str_eqb k ?x] => let E := fresh "K" in destruct (str_eqb k x) eqn:E; [apply str_eqb_eq in E|] end.
Ltac read_one t pf := let N := fresh "NP" in assert (N : t <> Panic) by pf; destruct t as [?|[]|]; cbn [bind]; [| |congruence]; clear N.
Ltac read_all W F := repeat match goal with
  | |- context [as_option (as_float F) ?v] => read_one (as_option (as_float F) v) ltac:(apply as_option_no_panic; apply (as_no_panic W F))
  | |- context [as_option (@as_str W) ?v] => read_one (as_option (@as_str W) v) ltac:(apply as_option_no_panic; apply (as_no_panic W F))
  | |- context [as_option (@as_bool W) ?v] => read_one (as_option (@as_bool W) v) ltac:(apply as_option_no_panic; apply (as_no_panic W F))
  | |- context [as_option (@as_usize W) ?v] => read_one (as_option (@as_usize W) v) ltac:(apply as_option_no_panic; apply (as_no_panic W F))
  | |- context [as_vec (as_pair (@as_str W) (as_float F)) ?v] => read_one (as_vec (as_pair (@as_str W) (as_float F)) v) ltac:(apply as_vec_no_panic; intros; apply as_pair_no_panic; apply (as_no_panic W F))
  | |- context [as_map ?v] => read_one (as_map v) ltac:(apply as_map_no_panic)
  | |- context [as_merge_type ?v] => read_one (as_merge_type v) ltac:(apply as_merge_type_no_panic)
  | |- context [@as_usize W ?v] => read_one (@as_usize W v) ltac:(apply (as_no_panic W F))
  | |- context [@as_bool W ?v] => read_one (@as_bool W v) ltac:(apply (as_no_panic W F))
  | |- context [@as_str W ?v] => read_one (@as_str W v) ltac:(apply (as_no_panic W F))
  | |- context [str_eqb ?t (key _)] => destruct (str_eqb t (key _))
  end.

Lemma bpe_field_swap {W} (F : floats W) st a b : fst a <> fst b ->
  (let! s := bpe_field F st a in bpe_field F s b) = (let! s := bpe_field F st b in bpe_field F s a).
Proof.
  destruct a as [k v], b as [k' v'], st. cbn [fst]. intros NE. unfold bpe_field.
  do 10 try known k; do 10 try known k'; try (exfalso; congruence); clear -F; cbn [bind]; read_all W F; reflexivity.
Qed.
Lemma wl_field_swap {W} (F : floats W) st a b : fst a <> fst b ->
  (let! s := @wl_field W st a in wl_field s b) = (let! s := @wl_field W st b in wl_field s a).
Proof.
  destruct a as [k v], b as [k' v'], st. cbn [fst]. intros NE. unfold wl_field.
  do 10 try known k; do 10 try known k'; try (exfalso; congruence); clear -F; cbn [bind]; read_all W F; reflexivity.
Qed.
Lemma wp_field_swap {W} (F : floats W) st a b : fst a <> fst b ->
  (let! s := @wp_field W st a in wp_field s b) = (let! s := @wp_field W st b in wp_field s a).
Proof.
  destruct a as [k v], b as [k' v'], st. cbn [fst]. intros NE. unfold wp_field.
  do 10 try known k; do 10 try known k'; try (exfalso; congruence); clear -F; cbn [bind]; read_all W F; reflexivity.
Qed.
Lemma uni_field_swap {W} (F : floats W) st a b : fst a <> fst b ->
  (let! s := uni_field F st a in uni_field F s b) = (let! s := uni_field F st b in uni_field F s a).
Proof.
  destruct a as [k v], b as [k' v'], st. cbn [fst]. intros NE. unfold uni_field.
  do 10 try known k; do 10 try known k'; try (exfalso; congruence); clear -F; cbn [bind]; read_all W F; reflexivity.
Qed.

(** ** Vocabularies *)
Definition jvocab {W} (v : list (str * N)) : list (str * json W) := map (fun e => (fst e, JInt (snd e))) v.

Lemma max_key_ge vr : forall acc m, fold_left (fun acc (e : N * str) => match acc with None => Some (fst e) | Some m => Some (N.max m (fst e)) end) vr acc = Some m ->
  (forall k, acc = Some k -> (k <= m)%N) /\ (forall e, In e vr -> (fst e <= m)%N) /\ (acc = Some m \/ exists e, In e vr /\ fst e = m).
Proof.
  induction vr as [|e vr IH]; intros acc m H; cbn [fold_left] in H.
  - subst acc. split; [intros k [= ->]; lia|]. split; [intros e []|]. auto.
  - destruct (IH _ _ H) as (X & Y & Z). destruct acc as [k|].
    + specialize (X _ eq_refl). split; [intros k' [= <-]; lia|]. split; [intros e' [<-|I]; [lia|auto]|].
      destruct Z as [[= Z]|(e' & I & Z)]; [|right; exists e'; cbn; auto]. destruct (N.max_dec k (fst e)) as [M|M]; rewrite M in Z; [left; congruence|right; exists e; cbn; auto].
    + specialize (X _ eq_refl). split; [intros k' [=]|]. split; [intros e' [<-|I]; [lia|auto]|].
      destruct Z as [[= Z]|(e' & I & Z)]; [right; exists e; cbn; auto|right; exists e'; cbn; auto].
Qed.
Lemma max_key_none vr : max_key vr = None -> vr = [].
Proof.
  destruct vr as [|e vr]; [reflexivity|]. unfold max_key. cbn [fold_left]. intros H. exfalso. revert H. generalize (fst e). induction vr as [|x vr IH]; intros k H; cbn in H; [discriminate|eauto].
Qed.

Lemma in_range i n : In i (range n) <-> (i < n)%N.
Proof.
  unfold range. rewrite in_map_iff. split.
  - intros (k & <- & H). apply in_seq in H. lia.
  - intros H. exists (N.to_nat i). split; [lia|]. apply in_seq. lia.
Qed.
Lemma range_nodup n : NoDup (range n).
Proof. unfold range. apply FinFun.Injective_map_NoDup; [intros a b H; lia|apply seq_NoDup]. Qed.

Lemma reverse_vocab_nodup vocab : NoDup (map fst (reverse_vocab vocab)).
Proof.
  unfold reverse_vocab. assert (G : forall acc : list (N * str), NoDup (map fst acc) -> NoDup (map fst (fold_left (fun acc (ti : str * N) => aset N.eqb (snd ti) (fst ti) acc) vocab acc))).
  { induction vocab as [|e vocab IH]; intros acc D; cbn [fold_left]; [exact D|]. apply IH. apply (aset_nodup _ Neqb_eq). exact D. }
  apply G. constructor.
Qed.

Lemma flat_map_pairs (vr : list (N * str)) l : NoDup l ->
  exists v, flat_map (fun i => match aget N.eqb i vr with Some t => [(t, @JInt unit i)] | None => [] end) l = jvocab v /\
    NoDup (map snd v) /\ forall t i, In (t, i) v <-> In i l /\ aget N.eqb i vr = Some t.
Proof.
  induction 1 as [|i l NI D (v & E & DV & IV)]; [exists []; split; [reflexivity|]; split; [apply NoDup_nil|]; intros t i; split; [intros []|intros [[] _]]|].
  cbn [flat_map]. destruct (aget N.eqb i vr) as [t|] eqn:G.
  - exists ((t, i) :: v). split; [cbn; rewrite E; reflexivity|]. split.
    + cbn. constructor; [|exact DV]. intros H. apply in_map_iff in H. destruct H as ([u k] & EQ & H). cbn in EQ. subst k. apply IV in H. tauto.
    + intros u k. cbn [In]. rewrite IV. split; [intros [[= <- <-]|[X Y]]; auto|]. intros [[<-|X] Y]; [left; congruence|auto].
  - exists v. split; [exact E|]. split; [exact DV|]. intros u k. rewrite IV. cbn [In]. split; [tauto|]. intros [[<-|X] Y]; [congruence|auto].
Qed.
Lemma jvocab_unit {W} v (l : list (str * json unit)) : l = jvocab v -> map (fun e => (fst e, match snd e with JInt i => @JInt W i | _ => JNull end)) l = jvocab v.
Proof. intros ->. unfold jvocab. rewrite map_map. apply map_ext. reflexivity. Qed.

Lemma ordered_vocab_ok {W} vocab : writable vocab -> exists v, @ordered_vocab W (reverse_vocab vocab) = Ok (JObj (jvocab v)) /\ Permutation vocab v.
Proof.
  intros (D1 & D2 & B). unfold ordered_vocab. destruct (max_key (reverse_vocab vocab)) as [m|] eqn:M.
  - destruct (max_key_ge _ _ _ M) as (_ & MB & MI). destruct MI as [MI|([k t] & MI & MK)]; [discriminate|]. cbn in MK. subst k.
    apply (In_aget _ Neqb_eq) in MI; [|apply reverse_vocab_nodup]. apply reverse_vocab_in in MI. specialize (B _ _ MI).
    assert (X : N.leb (2 ^ 32) (m + 1) = false) by lia. rewrite X.
    destruct (flat_map_pairs (reverse_vocab vocab) (range (m + 1)) (range_nodup _)) as (v & E & DV & IV). exists v. split.
    + f_equal. f_equal. apply (jvocab_unit (W := W)) in E. rewrite <- E. clear. induction (range (m + 1)) as [|i l IH]; [reflexivity|]. cbn [flat_map]. rewrite map_app, <- IH. destruct (aget _ _ _); reflexivity.
    + apply NoDup_Permutation; [apply (NoDup_map_inv fst); exact D1|apply (NoDup_map_inv snd); exact DV|]. intros [t' i]. rewrite IV, in_range, (reverse_vocab_iff _ _ _ D2). split; [|tauto]. intros H. split; [|exact H].
      apply (reverse_vocab_iff _ _ _ D2) in H. apply (aget_In _ Neqb_eq) in H. apply MB in H. cbn in H. lia.
  - apply max_key_none in M. destruct vocab as [|[t i] vocab]; [exists []; split; [reflexivity|constructor]|].
    exfalso. destruct (reverse_vocab_has ((t, i) :: vocab) t i) as (t' & H); [left; reflexivity|]. rewrite M in H. discriminate.
Qed.

Lemma into_map_jvocab {W} v : forall m, NoDup (map fst (m ++ v)) -> (forall t i, In (t, i) v -> (i < 2 ^ 32)%N) -> @into_map W (jvocab v) m = Ok (m ++ v).
Proof.
  induction v as [|[t i] v IH]; intros m D B; [rewrite app_nil_r; reflexivity|]. cbn [jvocab map into_map fst snd as_u32].
  assert (X : N.ltb i (2 ^ 32) = true) by (specialize (B t i (or_introl eq_refl)); lia). rewrite X. cbn [bind].
  assert (Y : aset str_eqb t i m = m ++ [(t, i)]).
  { assert (NI : ~ In t (map fst m)) by (intros I; rewrite map_app in D; rewrite map_cons in D; apply NoDup_remove_2 in D; apply D; apply in_or_app; left; exact I).
    clear - NI. induction m as [|[u k] m IH]; [reflexivity|]. cbn in *. destruct (str_eqb t u) eqn:E; [apply str_eqb_eq in E; subst; tauto|]. rewrite IH; auto. }
  fold (@jvocab W v). rewrite Y, IH; [rewrite <- app_assoc; reflexivity|rewrite <- app_assoc; exact D|]. intros u k I. apply (B u k). right. exact I.
Qed.

Lemma read_numbers_jvocab {W} v : forall m, NoDup (map fst (m ++ v)) -> (forall t i, In (t, i) v -> (i < 2 ^ 32)%N) -> @read_numbers W (jvocab v) m = Ok (m ++ v).
Proof.
  induction v as [|[t i] v IH]; intros m D B; [rewrite app_nil_r; reflexivity|]. cbn [jvocab map read_numbers fst snd].
  rewrite N.mod_small by (apply (B t i); left; reflexivity).
  assert (Y : aset str_eqb t i m = m ++ [(t, i)]).
  { assert (NI : ~ In t (map fst m)) by (intros I; rewrite map_app, map_cons in D; apply NoDup_remove_2 in D; apply D; apply in_or_app; left; exact I).
    clear - NI. induction m as [|[u k] m IH]; [reflexivity|]. cbn in *. destruct (str_eqb t u) eqn:E; [apply str_eqb_eq in E; subst; tauto|]. rewrite IH; auto. }
  fold (@jvocab W v). rewrite Y, IH; [rewrite <- app_assoc; reflexivity|rewrite <- app_assoc; exact D|]. intros u k I. apply (B u k). right. exact I.
Qed.

Lemma writable_perm v v' : Permutation v v' -> writable v -> writable v'.
Proof.
  intros P (D1 & D2 & B). split; [eapply Permutation_NoDup; [apply Permutation_map; exact P|exact D1]|]. split; [eapply Permutation_NoDup; [apply Permutation_map; exact P|exact D2]|].
  intros t i I. apply (B t i). apply (Permutation_in _ (Permutation_sym P)). exact I.
Qed.

Lemma as_map_jvocab {W} v : writable v -> @as_map W (JObj (jvocab v)) = Ok v.
Proof. intros (D1 & _ & B). cbn [as_map]. apply (into_map_jvocab v []); [exact D1|]. intros t i I. apply B in I. lia. Qed.
Lemma read_vocab_jvocab {W} v : writable v -> @read_vocab W (JObj (jvocab v)) = Ok v.
Proof. intros (D1 & _ & B). cbn [read_vocab]. apply (read_numbers_jvocab v []); [exact D1|]. intros t i I. apply B in I. lia. Qed.

(** ** Rearranged values *)
Lemma re_str {W} s (j : json W) : rearranged (JStr s) j -> j = JStr s.
Proof. inversion 1; reflexivity. Qed.
Lemma re_null {W} (j : json W) : rearranged JNull j -> j = JNull.
Proof. inversion 1; reflexivity. Qed.
Lemma re_bool {W} b (j : json W) : rearranged (JBool b) j -> j = JBool b.
Proof. inversion 1; reflexivity. Qed.
Lemma re_int {W} n (j : json W) : rearranged (JInt n) j -> j = JInt n.
Proof. inversion 1; reflexivity. Qed.
Lemma re_float {W} w (j : json W) : rearranged (JFloat w) j -> j = JFloat w.
Proof. inversion 1; reflexivity. Qed.
Lemma re_arr {W} l (j : json W) : (forall x y, In x l -> rearranged x y -> y = x) -> rearranged (JArr l) j -> j = JArr l.
Proof.
  intros H R. inversion R as [|? l' F|]; subst; [reflexivity|]. f_equal. clear R. induction F as [|x y l l' XY F IH]; [reflexivity|].
  f_equal; [apply H; [left; reflexivity|exact XY]|]. apply IH. intros u v I. apply H. right. exact I.
Qed.
Lemma re_jvocab {W} v (j : json W) : rearranged (JObj (jvocab v)) j -> exists v', j = JObj (jvocab v') /\ Permutation v v'.
Proof.
  intros R. inversion R as [| |? l' l'' F P]; subst; [exists v; auto|].
  assert (X : l' = jvocab v).
  { clear - F. revert l' F. induction v as [|[t i] v IH]; intros l' F; inversion F as [|? [u w] ? l1 [K R] F']; subst; [reflexivity|]. cbn in K, R. apply re_int in R. subst. cbn. rewrite (IH l1); [reflexivity|exact F']. }
  subst l'. apply Permutation_sym in P. apply Permutation_map_inv in P. destruct P as (v' & -> & P). exists v'. split; [reflexivity|exact P].
Qed.
