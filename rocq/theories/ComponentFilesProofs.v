(** Proofs about saving and loading components. *)
From Coq Require Import String.
From Verif Require Import Base ListFacts StrBytes AMap EncodingModel NormModel PatternModel DecodersModel ProcessorsModel NormalizersModel PreTokenizersModel ModelFilesModel ModelFilesSpec ModelFilesProofs ComponentFilesModel ComponentFilesSpec.

Lemma all_of_forall {T} (P : T -> Prop) l : all_of P l <-> Forall P l.
Proof. induction l as [|x l IH]; cbn; [split; constructor|]. rewrite IH. split; [intros []; constructor; assumption|inversion 1; auto]. Qed.

(** ** Induction on configurations and values *)
Lemma norm_config_ind' (P : norm_config -> Prop) :
  (forall l, Forall P l -> P (CnSequence l)) -> (forall c, (forall l, c <> CnSequence l) -> P c) -> forall c, P c.
Proof.
  intros S O. fix IH 1. intros c. destruct c; try (apply O; discriminate). apply S. induction l; constructor; [apply IH|assumption].
Qed.
Lemma pre_config_ind' (P : pre_config -> Prop) :
  (forall l, Forall P l -> P (CpSequence l)) -> (forall c, (forall l, c <> CpSequence l) -> P c) -> forall c, P c.
Proof.
  intros S O. fix IH 1. intros c. destruct c; try (apply O; discriminate). apply S. induction l; constructor; [apply IH|assumption].
Qed.
Lemma dec_config_ind' (P : dec_config -> Prop) :
  (forall l, Forall P l -> P (CdSequence l)) -> (forall c, (forall l, c <> CdSequence l) -> P c) -> forall c, P c.
Proof.
  intros S O. fix IH 1. intros c. destruct c; try (apply O; discriminate). apply S. induction l; constructor; [apply IH|assumption].
Qed.
Lemma proc_config_ind' (P : proc_config -> Prop) :
  (forall l, Forall P l -> P (CqSequence l)) -> (forall c, (forall l, c <> CqSequence l) -> P c) -> forall c, P c.
Proof.
  intros S O. fix IH 1. intros c. destruct c; try (apply O; discriminate). apply S. induction l; constructor; [apply IH|assumption].
Qed.
Lemma json_ind' {W} (P : json W -> Prop) :
  P JNull -> (forall b, P (JBool b)) -> (forall n, P (JInt n)) -> (forall w, P (JFloat w)) -> (forall s, P (JStr s)) ->
  (forall l, Forall P l -> P (JArr l)) -> (forall l, Forall (fun kv => P (snd kv)) l -> P (JObj l)) -> forall j, P j.
Proof.
  intros H1 H2 H3 H4 H5 H6 H7. fix IH 1. intros j. destruct j; [exact H1|apply H2|apply H3|apply H4|apply H5| |].
  - apply H6. induction l; constructor; [apply IH|assumption].
  - apply H7. induction l; constructor; [apply IH|assumption].
Qed.

(** ** Fields of a rearranged object *)
Section files.
  Context {W : Type}.
  Notation value := (json W).
  Implicit Types l : list (str * value).

  Lemma one_of {T} (f : T -> str) k x (a : list T) : (forall y, In y a -> f y = k) -> NoDup (map f a) -> In x a -> a = [x].
  Proof.
    intros H D I. destruct a as [|y [|z a]]; [contradiction|destruct I as [->|[]]; reflexivity|].
    cbn in D. inversion D as [|? ? N _]; subst. contradict N. left. rewrite (H y), (H z); [reflexivity|right; left; reflexivity|left; reflexivity].
  Qed.
  Lemma nodup_filter {T} (f : T -> str) g (a : list T) : NoDup (map f a) -> NoDup (map f (filter g a)).
  Proof.
    induction a as [|x a IH]; cbn; intros D; [constructor|]. inversion D as [|? ? N D']; subst. destruct (g x); cbn; [|auto]. constructor; [|auto].
    contradict N. apply in_map_iff in N. destruct N as (y & E & I). apply filter_In in I. rewrite <- E. apply in_map. tauto.
  Qed.
  Lemma filter_permutation {T} (g : T -> bool) a b : Permutation a b -> Permutation (filter g a) (filter g b).
  Proof.
    induction 1 as [|x a b P IH|x y a|a b c P1 IH1 P2 IH2]; cbn; [constructor| | |eapply perm_trans; eassumption].
    - destruct (g x); [constructor|]; exact IH.
    - destruct (g x), (g y); try apply Permutation_refl. constructor.
  Qed.
  Lemma fields_perm k l l' : Permutation l l' -> NoDup (map fst l) ->
    filter (fun kv => str_eqb (fst kv) (key k)) l' = filter (fun kv => str_eqb (fst kv) (key k)) l.
  Proof.
    intros P D. assert (Q := filter_permutation (fun kv => str_eqb (fst kv) (key k)) _ _ P).
    assert (D1 : NoDup (map fst (filter (fun kv : str * value => str_eqb (fst kv) (key k)) l))) by (apply nodup_filter; exact D).
    destruct (filter _ l) as [|x a] eqn:E; [apply Permutation_nil in Q; exact Q|].
    rewrite (one_of fst (key k) x (x :: a)) in Q |- *; [apply Permutation_length_1_inv in Q; exact Q| |exact D1|left; reflexivity| |exact D1|left; reflexivity];
      intros y I; rewrite <- E in I; apply filter_In in I; apply str_eqb_eq; tauto.
  Qed.

  (** The same fields. *)
  Definition alike l l' : Prop := forall k, filter (fun kv => str_eqb (fst kv) (key k)) l' = filter (fun kv => str_eqb (fst kv) (key k)) l.
  Lemma alike_field l l' k : alike l l' -> field k l' = field k l.
  Proof. intros A. unfold field. rewrite A. reflexivity. Qed.
  Lemma alike_need {T} l l' k (r : value -> res file_error T) : alike l l' -> need k r l' = need k r l.
  Proof. intros A. unfold need. rewrite (alike_field l l') by exact A. reflexivity. Qed.
  Lemma alike_need_or {T} l l' k (r : value -> res file_error T) d : alike l l' -> need_or k r d l' = need_or k r d l.
  Proof. intros A. unfold need_or. rewrite (alike_field l l') by exact A. reflexivity. Qed.
  Lemma alike_may {T} l l' k (r : value -> res file_error T) : alike l l' -> may k r l' = may k r l.
  Proof. intros A. unfold may. rewrite (alike_field l l') by exact A. reflexivity. Qed.
  Lemma kids_filter {T} k (f : value -> res file_error T) l :
    kids k f l = flat_map (fun kv => match snd kv with JArr xs => map f xs | _ => [] end) (filter (fun kv => str_eqb (fst kv) (key k)) l).
  Proof. induction l as [|kv l IH]; [reflexivity|]. unfold kids in *. cbn [flat_map filter]. rewrite IH. destruct (str_eqb _ _); reflexivity. Qed.
  Lemma alike_kids {T} l l' k (f : value -> res file_error T) : alike l l' -> kids k f l' = kids k f l.
  Proof. intros A. rewrite !kids_filter, A. reflexivity. Qed.
  Lemma alike_type l l' : alike l l' -> type_name l' = type_name l.
  Proof. intros A. unfold type_name. rewrite (alike_field l l') by exact A. reflexivity. Qed.

  Lemma re_obj l (j : value) : rearranged (JObj l) j -> NoDup (map fst l) ->
    exists l' l'', j = JObj l'' /\ Forall2 (fun a b => fst a = fst b /\ rearranged (snd a) (snd b)) l l' /\ alike l' l''.
  Proof.
    intros R D. inversion R as [| |? l' l'' F P]; subst.
    - exists l, l. split; [reflexivity|]. split; [|intros k; reflexivity]. clear. induction l; constructor; [split; [reflexivity|constructor]|assumption].
    - exists l', l''. split; [reflexivity|]. split; [exact F|]. intros k. apply fields_perm; [exact P|].
      replace (map fst l') with (map fst l); [exact D|]. clear - F. induction F as [|a b l l' [E _] _ IH]; cbn; congruence.
  Qed.
  Lemma re_obj1 k v (j : value) : rearranged (JObj [(k, v)]) j -> exists x, j = JObj [(k, x)] /\ rearranged v x.
  Proof.
    intros R. inversion R as [| |? l' l'' F P]; subst; [exists v; split; [reflexivity|constructor]|].
    inversion F as [|? [k' x] ? l1 [E Q] F1]; subst. inversion F1; subst. cbn in E, Q. subst k'. apply Permutation_length_1_inv in P. subst. exists x. auto.
  Qed.
End files.

(** All readers see the fields only. *)
Ltac by_alike A :=
  repeat first [rewrite (alike_need _ _ _ _ A) | rewrite (alike_need_or _ _ _ _ _ A) | rewrite (alike_may _ _ _ _ A)].
Section alike.
  Context {W : Type} (E : engines).
  Notation value := (json W).
  Context (l l' : list (str * value)) (A : alike l l').

  Lemma alike_typed {T} n (r : res file_error T) : typed n l' r = typed n l r.
  Proof using A. unfold typed. by_alike A. reflexivity. Qed.
  Lemma alike_unit {T} n (x : T) : unit_from n x l' = unit_from n x l.
  Proof using A. apply alike_typed. Qed.
  Lemma alike_byte_level {T} (f : bool -> bool -> bool -> T) : byte_level_from f l' = byte_level_from f l.
  Proof using A. unfold byte_level_from. rewrite alike_typed. by_alike A. reflexivity. Qed.
  Lemma alike_metaspace {T} (f : char -> prepend_scheme -> bool -> T) : metaspace_from f l' = metaspace_from f l.
  Proof using A. unfold metaspace_from. rewrite alike_typed. by_alike A. reflexivity. Qed.
  Lemma alike_replace {T} (f : pattern -> str -> T) : replace_from E f l' = replace_from E f l.
  Proof using A. unfold replace_from. by_alike A. reflexivity. Qed.
  Lemma alike_nested {T} k (ks : list (res file_error T)) : nested k l' ks = nested k l ks.
  Proof using A. unfold nested. by_alike A. reflexivity. Qed.

  Lemma alike_norm ks : norm_read E l' ks = norm_read E l ks.
  Proof using A.
    unfold norm_read, tagged_or. rewrite (alike_type _ _ A), !alike_unit, alike_replace.
    unfold bert_norm_from, strip_norm_from, precompiled_from, prepend_from, norm_seq_from. rewrite alike_nested. by_alike A. reflexivity.
  Qed.
  Lemma alike_pre ks : pre_read E l' ks = pre_read E l ks.
  Proof using A.
    unfold pre_read, tagged_or. rewrite (alike_type _ _ A), !alike_unit, alike_byte_level, alike_metaspace.
    unfold delimiter_from, pre_seq_from, split_from, punctuation_from, digits_from, fixed_from. rewrite !alike_typed, alike_nested. by_alike A. reflexivity.
  Qed.
  Lemma alike_dec ks : dec_read E l' ks = dec_read E l ks.
  Proof using A.
    unfold dec_read, tagged_or. rewrite (alike_type _ _ A), !alike_unit, alike_byte_level, alike_metaspace, alike_replace.
    unfold bpe_dec_from, wordpiece_dec_from, ctc_from, dec_seq_from, strip_dec_from. rewrite !alike_typed, alike_nested. by_alike A. reflexivity.
  Qed.
  Lemma alike_proc ks : proc_read l' ks = proc_read l ks.
  Proof using A.
    unfold proc_read, roberta_from, bert_from, template_from, proc_seq_from. rewrite !alike_typed, alike_nested, alike_byte_level. by_alike A. reflexivity.
  Qed.
End alike.

Lemma alike_untyped {W} (l l' : list (str * json W)) : alike l l' ->
  alike (filter (fun kv => negb (str_eqb (fst kv) (key "type"))) l) (filter (fun kv => negb (str_eqb (fst kv) (key "type"))) l').
Proof.
  intros A k. assert (C : forall a : list (str * json W), filter (fun kv => str_eqb (fst kv) (key k)) (filter (fun kv => negb (str_eqb (fst kv) (key "type"))) a) =
    if str_eqb (key k) (key "type") then [] else filter (fun kv => str_eqb (fst kv) (key k)) a).
  { induction a as [|kv a IH]; cbn [filter]; [destruct (str_eqb _ _); reflexivity|].
    destruct (str_eqb (fst kv) (key "type")) eqn:T; cbn [negb filter]; destruct (str_eqb (fst kv) (key k)) eqn:K; rewrite IH; try reflexivity.
    - apply str_eqb_eq in T, K. rewrite <- K, T, str_eqb_refl. reflexivity.
    - apply str_eqb_eq in K. rewrite <- K, T. reflexivity. }
  rewrite !C, A. reflexivity.
Qed.

(** ** What the readers make of a rearranged value *)
Section reads.
  Context {W : Type} (E : engines).
  Notation value := (json W).
  Definition reads {T} (read : value -> res file_error T) (v : value) (x : T) : Prop := forall j, rearranged v j -> read j = Ok x.

  Lemma reads_u32 n : fits 32 n -> reads as_u32 (JInt n) n.
  Proof. intros H j R. apply re_int in R. subst. cbn [as_u32]. unfold fits in H. rewrite (proj2 (N.ltb_lt _ _) H). reflexivity. Qed.
  Lemma reads_nat n : fits 64 (N.of_nat n) -> reads as_nat (of_nat n) n.
  Proof. intros H j R. apply re_int in R. subst. unfold as_nat. cbn [as_usize]. unfold fits in H. rewrite (proj2 (N.ltb_lt _ _) H). cbn [bind]. rewrite Nnat.Nat2N.id. reflexivity. Qed.
  Lemma reads_str s : reads as_str (JStr s) s.
  Proof. intros j R. apply re_str in R. subst. reflexivity. Qed.
  Lemma reads_pattern p : reads as_pattern (of_pattern p) p.
  Proof. intros j R. destruct p; apply re_obj1 in R; destruct R as (x & -> & R); apply re_str in R; subst; reflexivity. Qed.
  Lemma reads_vec {S T} (read : value -> res file_error T) (f : S -> value) (g : S -> T) l :
    Forall (fun x => reads read (f x) (g x)) l -> reads (as_vec read) (JArr (map f l)) (map g l).
  Proof.
    intros H j R. assert (Q : exists l', j = JArr l' /\ Forall2 rearranged (map f l) l').
    { inversion R; subst; [|eauto]. eexists. split; [reflexivity|]. clear. induction l; constructor; [constructor|assumption]. }
    destruct Q as (l' & -> & Q). cbn [as_vec]. clear R. revert l' Q. induction H as [|x l X _ IH]; intros l' Q; cbn in Q; inversion Q as [|? y ? l1 Y Q']; subst; [reflexivity|].
    cbn [map_res map]. rewrite (X _ Y). cbn [bind]. rewrite (IH _ Q'). reflexivity.
  Qed.
  Lemma reads_tok_id t : fits 32 (snd t) -> reads as_tok_id (of_tok_id t) t.
  Proof.
    intros H j R. apply re_arr in R; [|intros x y [<-|[<-|[]]] Q; [apply re_str in Q|apply re_int in Q]; assumption]. subst. destruct t as [s n]. unfold as_tok_id, of_tok_id.
    cbn [as_pair fst snd as_str bind]. rewrite (reads_u32 n H _ (re_same _)). reflexivity.
  Qed.

  Lemma need_at {T} k (read : value -> res file_error T) l v : field k l = Ok (Some v) -> need k read l = read v.
  Proof. intros H. unfold need. rewrite H. reflexivity. Qed.
  Lemma need_or_at {T} k (read : value -> res file_error T) d l v : field k l = Ok (Some v) -> need_or k read d l = read v.
  Proof. intros H. unfold need_or. rewrite H. reflexivity. Qed.
  Lemma need_absent {T} k (read : value -> res file_error T) l : field k l = Ok None -> need k read l = Err EFile.
  Proof. intros H. unfold need. rewrite H. reflexivity. Qed.
End reads.

(** The fields of a written object. *)
Ltac fields F :=
  repeat match type of F with
  | Forall2 _ (_ :: _) _ => let x := fresh "x" in let k := fresh "k" in let R := fresh "R" in let F' := fresh "F" in let Q := fresh "Q" in
      inversion F as [|? [k x] ? ? [Q R] F']; subst; clear F; cbn [fst snd] in Q, R; subst k; rename F' into F
  | Forall2 _ [] _ => inversion F; subst; clear F
  end;
  repeat match goal with
  | R : rearranged (JStr _) _ |- _ => apply re_str in R; subst
  | R : rearranged (JBool _) _ |- _ => apply re_bool in R; subst
  | R : rearranged JNull _ |- _ => apply re_null in R; subst
  end.
Ltac nodup_keys := repeat (constructor; [intros H; cbn in H; repeat destruct H as [H|H]; try discriminate H; contradiction|]); constructor.
Ltac opened R l'' F A := let l' := fresh "l" in
  apply re_obj in R; [|nodup_keys]; destruct R as (l' & l'' & -> & F & A).

Section norm.
  Context {W : Type} (E : engines).
  Notation value := (json W).

  Lemma compiled_ok p : en_regex E p <> None -> compiled E p = Ok tt.
  Proof. unfold compiled. destruct (en_regex E p); [reflexivity|contradiction]. Qed.
  Lemma replace_reads {T} (f : pattern -> str -> T) p s l vp vs : en_regex E p <> None -> rearranged (of_pattern p) vp -> vs = JStr s ->
    field "pattern" l = Ok (Some vp) -> field "content" l = Ok (Some vs) -> replace_from (W := W) E f l = Ok (f p s).
  Proof.
    intros V R -> F1 F2. unfold replace_from. rewrite (need_at _ _ _ _ F1), (reads_pattern _ _ R). cbn [bind]. rewrite (need_at _ _ _ _ F2). cbn [as_str bind].
    rewrite compiled_ok by exact V. reflexivity.
  Qed.

  Lemma collect_map {S T} (f : S -> res file_error T) l xs : Forall2 (fun y x => f y = Ok x) l xs -> collect (map f l) = Ok xs.
  Proof. induction 1 as [|y x l xs H _ IH]; [reflexivity|]. cbn [map collect]. rewrite H. cbn [bind]. rewrite IH. reflexivity. Qed.
  (** The elements of a sequence. *)
  Lemma nested_reads {T} k (of_json : value -> res file_error T) (to_json : T -> value) cs l v :
    Forall (fun c => reads of_json (to_json c) c) cs -> rearranged (JArr (map to_json cs)) v ->
    filter (fun kv => str_eqb (fst kv) (key k)) l = [(key k, v)] ->
    nested k l (kids k of_json l) = Ok cs.
  Proof.
    intros H R F. assert (Q : exists l', v = JArr l' /\ Forall2 rearranged (map to_json cs) l').
    { inversion R; subst; [|eauto]. eexists. split; [reflexivity|]. clear. induction cs; constructor; [constructor|assumption]. }
    destruct Q as (l' & -> & Q). unfold nested. rewrite (need_at _ _ _ (JArr l')) by (unfold field; rewrite F; reflexivity). cbn [as_array bind].
    rewrite kids_filter, F. cbn [flat_map snd]. rewrite app_nil_r. apply collect_map. clear F R. revert l' Q. induction H as [|x l1 X _ IH]; intros l' Q; cbn in Q; inversion Q as [|? y ? l2 Y Q']; subst; constructor; auto.
  Qed.

  Lemma norm_round c : norm_valid E c -> reads (W := W) (norm_of_json E) (norm_to_json c) c.
  Proof.
    induction c as [cs IH|c NS] using norm_config_ind'; intros V j R.
    - cbn [norm_valid] in V. apply all_of_forall in V. cbn [norm_to_json] in R. opened R l'' F A. fields F. cbn [norm_of_json].
      rewrite (alike_norm E _ _ A), (alike_kids _ _ _ _ A). set (l := _ :: _).
      transitivity (norm_seq_from l (kids "normalizers" (norm_of_json E) l)); [reflexivity|]. unfold norm_seq_from.
      erewrite nested_reads; [reflexivity| |exact R0|reflexivity]. rewrite Forall_forall in *. intros c I. apply IH; auto.
    - destruct c; cbn [norm_to_json] in R; try (exfalso; eapply NS; reflexivity); opened R l'' F A; cbn [norm_of_json]; rewrite (alike_norm E _ _ A);
        try (fields F; reflexivity).
      + fields F. destruct strip_accents; cbn [of_option_bool] in *; fields R0; reflexivity.
      + fields F. cbn [norm_valid] in V. destruct (en_chart E charsmap) eqn:C; [|contradiction]. set (ks := kids _ _ _). set (l := _ :: _).
        transitivity (expected (precompiled_from E l)); [reflexivity|]. unfold precompiled_from. rewrite (need_at _ _ _ (JStr charsmap)) by reflexivity. cbn [as_str bind]. rewrite C. reflexivity.
      + fields F. cbn [norm_valid] in V. set (ks := kids _ _ _). set (l := _ :: _). transitivity (replace_from E CnReplace l); [reflexivity|].
        eapply replace_reads; [exact V|exact R0|reflexivity|reflexivity|reflexivity].
  Qed.
End norm.

Section others.
  Context {W : Type} (E : engines).
  Notation value := (json W).

  Lemma reads_behavior b : reads (W := W) as_behavior (of_behavior b) b.
  Proof using. intros j R. destruct b; apply re_str in R; subst; reflexivity. Qed.
  Lemma reads_scheme s : reads (W := W) as_scheme (of_scheme s) s.
  Proof using. intros j R. destruct s; apply re_str in R; subst; reflexivity. Qed.
  Lemma metaspace_reads {T} (f : char -> prepend_scheme -> bool -> T) rep scheme sp l vs :
    field "type" l = Ok (Some (JStr (key "Metaspace"))) -> field "replacement" l = Ok (Some (JStr [rep])) -> field "add_prefix_space" l = Ok None ->
    field "prepend_scheme" l = Ok (Some vs) -> rearranged (of_scheme scheme) vs -> field "split" l = Ok (Some (JBool sp)) -> field "str_rep" l = Ok None ->
    metaspace_from (W := W) f l = Ok (f rep scheme sp).
  Proof using.
    intros F1 F2 F3 F4 R F5 F6. unfold metaspace_from, typed. rewrite (need_at _ _ _ _ F1), (need_at _ _ _ _ F2). unfold may, need_or. rewrite F3, F4, F5, F6. cbn [bind as_char].
    rewrite (reads_scheme _ _ R). destruct scheme; reflexivity.
  Qed.

  Lemma pre_round c : pre_valid E c -> reads (W := W) (pre_of_json E) (pre_to_json c) c.
  Proof using.
    induction c as [cs IH|c NS] using pre_config_ind'; intros V j R.
    - cbn [pre_valid] in V. apply all_of_forall in V. cbn [pre_to_json] in R. opened R l'' F A. fields F. cbn [pre_of_json].
      rewrite (alike_pre E _ _ A), (alike_kids _ _ _ _ A). set (l := _ :: _).
      transitivity (pre_seq_from l (kids "pretokenizers" (pre_of_json E) l)); [reflexivity|]. unfold pre_seq_from.
      erewrite nested_reads; [reflexivity| |exact R0|reflexivity]. rewrite Forall_forall in *. intros c I. apply IH; auto.
    - destruct c; cbn [pre_to_json] in R; try (exfalso; eapply NS; reflexivity); opened R l'' F A; cbn [pre_of_json]; rewrite (alike_pre E _ _ A);
        fields F; try reflexivity; cbn [pre_valid] in V; set (ks := kids _ _ _); set (l := _ :: _).
      + transitivity (metaspace_from CpMetaspace l); [reflexivity|]. eapply metaspace_reads; try reflexivity. exact R1.
      + transitivity (split_from E l); [reflexivity|]. unfold split_from. rewrite (need_at _ _ _ x0), (reads_pattern _ _ R0) by reflexivity. cbn [bind].
        rewrite (need_at _ _ _ x1), (reads_behavior _ _ R1) by reflexivity. cbn [bind]. rewrite compiled_ok by exact V. reflexivity.
      + transitivity (punctuation_from l); [reflexivity|]. unfold punctuation_from. rewrite (need_or_at _ _ _ _ x0), (reads_behavior _ _ R0) by reflexivity. reflexivity.
      + transitivity (fixed_from l); [reflexivity|]. unfold fixed_from. rewrite (need_or_at _ _ _ _ x0), (reads_nat _ V _ R0) by reflexivity. reflexivity.
  Qed.

  Lemma dec_round c : dec_valid E c -> reads (W := W) (dec_of_json E) (dec_to_json c) c.
  Proof using.
    induction c as [cs IH|c NS] using dec_config_ind'; intros V j R.
    - cbn [dec_valid] in V. apply all_of_forall in V. cbn [dec_to_json] in R. opened R l'' F A. fields F. cbn [dec_of_json].
      rewrite (alike_dec E _ _ A), (alike_kids _ _ _ _ A). set (l := _ :: _).
      transitivity (dec_seq_from l (kids "decoders" (dec_of_json E) l)); [reflexivity|]. unfold dec_seq_from.
      erewrite nested_reads; [reflexivity| |exact R0|reflexivity]. rewrite Forall_forall in *. intros c I. apply IH; auto.
    - destruct c; cbn [dec_to_json] in R; try (exfalso; eapply NS; reflexivity); opened R l'' F A; cbn [dec_of_json]; rewrite (alike_dec E _ _ A);
        fields F; try reflexivity; cbn [dec_valid] in V; set (ks := kids _ _ _); set (l := _ :: _).
      + transitivity (metaspace_from CdMetaspace l); [reflexivity|]. eapply metaspace_reads; try reflexivity. exact R1.
      + transitivity (replace_from E CdReplace l); [reflexivity|]. eapply replace_reads; [exact V|exact R0|reflexivity|reflexivity|reflexivity].
      + transitivity (strip_dec_from l); [reflexivity|]. destruct V as [V1 V2]. unfold strip_dec_from. rewrite (need_at _ _ _ (JStr [content])) by reflexivity. cbn [bind as_char].
        rewrite (need_at _ _ _ x1), (reads_nat _ V1 _ R1) by reflexivity. cbn [bind]. rewrite (need_at _ _ _ x2), (reads_nat _ V2 _ R2) by reflexivity. reflexivity.
  Qed.

  (** Post-processors. *)
  Lemma reads_tseq s : reads (W := W) as_tseq (of_tseq s) s.
  Proof using. intros j R. destruct s; apply re_str in R; subst; reflexivity. Qed.
  Lemma reads_piece p : piece_valid p -> reads (W := W) as_piece (of_piece p) p.
  Proof using.
    intros V j R. destruct p as [s t|n t]; apply re_obj1 in R; destruct R as (x & -> & R); opened R l'' F A; fields F.
    - transitivity (let! s := need "id" as_tseq l'' in let! t := need "type_id" as_u32 l'' in Ok (PSeq s t)); [reflexivity|]. by_alike A.
      rewrite (need_at _ _ _ x), (reads_tseq _ _ R) by reflexivity. cbn [bind]. rewrite (need_at _ _ _ x0), (reads_u32 _ V _ R0) by reflexivity. reflexivity.
    - transitivity (let! s := need "id" as_str l'' in let! t := need "type_id" as_u32 l'' in Ok (PSpecial s t)); [reflexivity|]. by_alike A.
      rewrite (need_at _ _ _ (JStr n)) by reflexivity. cbn [bind as_str]. rewrite (need_at _ _ _ x0), (reads_u32 _ V _ R0) by reflexivity. reflexivity.
  Qed.
  Lemma map_id' {T} (l : list T) : map (fun x => x) l = l.
  Proof using. apply map_id. Qed.
  Lemma reads_special s : Forall (fits 32) (st_ids s) -> reads (W := W) as_special_token (of_special_token s) s.
  Proof using.
    intros V j R. unfold of_special_token in R. opened R l'' F A. fields F. cbn [as_special_token]. by_alike A. rewrite (need_at _ _ _ (JStr (st_id s))) by reflexivity. cbn [as_str bind].
    rewrite (need_at _ _ _ x0), (reads_vec as_u32 JInt (fun n => n) (st_ids s)) by (try reflexivity; try exact R0; rewrite Forall_forall in *; intros n I; apply reads_u32; auto).
    cbn [bind]. rewrite (need_at _ _ _ x1), (reads_vec as_str JStr (fun n => n) (st_tokens s)) by (try reflexivity; try exact R1; rewrite Forall_forall in *; intros n I; apply reads_str).
    cbn [bind]. rewrite !map_id'. destruct s; reflexivity.
  Qed.

  Lemma into_specials_reads (m : list (str * special_token)) : forall l acc, NoDup (map fst acc ++ map fst m) ->
    Forall2 (fun a b => fst a = fst b /\ as_special_token (snd b) = Ok (snd a)) m l -> into_specials (W := W) l acc = Ok (acc ++ m).
  Proof using.
    induction m as [|[k s] m IH]; intros l acc D F; inversion F as [|? [k' v] ? l' [K V] F']; subst; [cbn; rewrite app_nil_r; reflexivity|].
    cbn [fst snd] in K, V. subst k'. cbn [into_specials]. rewrite V. cbn [bind]. assert (N : ~ In k (map fst acc)).
    { cbn [map fst] in D. apply NoDup_remove_2 in D. contradict D. apply in_or_app. auto. }
    assert (S : forall a : list (str * special_token), ~ In k (map fst a) -> aset str_eqb k s a = a ++ [(k, s)]).
    { clear. induction a as [|[k' v'] a IH]; intros N; [reflexivity|]. cbn [aset]. cbn [map fst In] in N. destruct (str_eqb k k') eqn:Q; [apply str_eqb_eq in Q; subst; tauto|]. cbn. rewrite IH; [reflexivity|tauto]. }
    rewrite S by exact N. rewrite IH with (2 := F').
    - rewrite <- app_assoc. reflexivity.
    - rewrite map_app, <- app_assoc. exact D.
  Qed.
  Lemma forall2_perm {S T} (Q : S -> T -> Prop) a b : Forall2 Q a b -> forall b', Permutation b b' -> exists a', Permutation a a' /\ Forall2 Q a' b'.
  Proof using.
    intros F b' P. revert a F. induction P as [|x b b' P IH|x y b|b b1 b2 P1 IH1 P2 IH2]; intros a F.
    - exists a. split; [apply Permutation_refl|exact F].
    - inversion F as [|u ? a1 ? U F1]; subst. destruct (IH _ F1) as (a' & P' & F'). exists (u :: a'). split; constructor; assumption.
    - inversion F as [|u ? a1 ? U F1]; subst. inversion F1 as [|v ? a2 ? V F2]; subst. exists (v :: u :: a2). split; [constructor|constructor; [exact V|constructor; assumption]].
    - destruct (IH1 _ F) as (a1 & Q1 & F1). destruct (IH2 _ F1) as (a2 & Q2 & F2). exists a2. split; [eapply perm_trans; eassumption|exact F2].
  Qed.
  Lemma reads_specials by_key m : key_sort by_key -> NoDup (map fst m) -> Forall (fun e => Forall (fits 32) (st_ids (snd e))) m ->
    forall j, rearranged (of_specials (W := W) by_key m) j -> exists m', as_specials_map j = Ok m' /\ Permutation m m'.
  Proof using.
    intros S D V j R. unfold of_specials in R. assert (P := S m). set (m1 := by_key m) in *.
    assert (Q : exists l' l'', j = JObj l'' /\ Forall2 (fun a b => fst a = fst b /\ rearranged (snd a) (snd b)) (map (fun e => (fst e, of_special_token (snd e))) m1) l' /\ Permutation l' l'').
    { inversion R as [| |? l' l'' F P']; subst; [|eauto 6]. eexists. eexists. split; [reflexivity|]. split; [|apply Permutation_refl]. clear. induction m1; constructor; [split; [reflexivity|constructor]|assumption]. }
    destruct Q as (l' & l'' & -> & F & P'). cbn [as_specials_map].
    assert (F1 : Forall2 (fun (a : str * special_token) (b : str * value) => fst a = fst b /\ as_special_token (snd b) = Ok (snd a)) m1 l').
    { assert (V1 : Forall (fun e => Forall (fits 32) (st_ids (snd e))) m1) by (rewrite Forall_forall in *; intros e I; apply V; eapply Permutation_in; [apply Permutation_sym; exact P|exact I]).
      clear - F V1. revert l' F. induction V1 as [|[k s] m1 X _ IH]; intros l' F; cbn in F; inversion F as [|? [k' v] ? l1 [K Q] F']; subst; constructor; [|auto].
      cbn [fst snd] in *. split; [exact K|]. apply reads_special; assumption. }
    destruct (forall2_perm _ _ _ F1 _ P') as (m2 & P2 & F2).
    exists m2. assert (P3 : Permutation m m2) by (eapply perm_trans; eassumption). split; [|exact P3]. apply (into_specials_reads m2 l'' []); [|exact F2].
    cbn. eapply Permutation_NoDup; [apply Permutation_map; exact P3|exact D].
  Qed.
End others.
