(** Invariants of the added vocabulary. *)
From Verif Require Import Base StrBytes ListFacts AMap EncodingModel NormModel PreTokModel AddedModel AddedSpec.

Lemma N_eqb_eq a b : N.eqb a b = true <-> a = b.
Proof. apply N.eqb_eq. Qed.

Lemma added_token_eqb_eq a b : added_token_eqb a b = true <-> a = b.
Proof.
  unfold added_token_eqb. rewrite !andb_true_iff, str_eqb_eq, !eqb_true_iff.
  destruct a, b; cbn. split.
  - intros (((((-> & ->) & ->) & ->) & ->) & ->). reflexivity.
  - intros H. injection H as -> -> -> -> -> ->. repeat split.
Qed.

Lemma str_mem_In s l : str_mem s l = true <-> In s l.
Proof.
  unfold str_mem. rewrite existsb_exists. split.
  - intros (x & H & E). apply str_eqb_eq in E. subst. exact H.
  - intros H. exists s. split; [exact H|apply str_eqb_refl].
Qed.

(** What recording one token does. *)
Record recorded (m : model_vocab) (normed : option str) (t : added_token) (av : added_vocab) (next : N)
       (av' : added_vocab) (next' : N) (id : N) : Prop := {
  rc_nonempty : at_content t <> [];
  rc_new : registered av (at_content t) <> Some t;
  rc_id : (av_token_to_id av m (at_content t) = Some id /\ next' = next) \/
          (av_token_to_id av m (at_content t) = None /\ id = next /\ next' = (next + 1)%N);
  rc_map : av_map av' = aset str_eqb (at_content t) id (av_map av);
  rc_map_r : av_map_r av' = aset N.eqb id t (av_map_r av);
  rc_special : forall c, In c (av_special av') <-> In c (av_special av) \/ (at_special t = true /\ c = at_content t);
  rc_cache : forall i n, aget N.eqb i (av_cache av') = Some n ->
             aget N.eqb i (av_cache av) = Some n \/ (i = id /\ normed = Some n);
  rc_name : forall i n, aget N.eqb i (av_cache av') = Some n <->
            (i = id /\ normed = Some n /\ at_normalized t = true /\ n <> at_content t) \/
            (aget N.eqb i (av_cache av) = Some n /\
             ~ (i = id /\ exists x, normed = Some x /\ at_normalized t = true /\ x <> at_content t));
  rc_encode : av_encode_special av' = av_encode_special av }.

Lemma is_ignored_spec t av : is_ignored t av = true <-> at_content t = [] \/ registered av (at_content t) = Some t.
Proof.
  unfold is_ignored, registered. rewrite orb_true_iff, is_nil_true.
  destruct (aget str_eqb (at_content t) (av_map av)) as [i|].
  - destruct (aget N.eqb i (av_map_r av)) as [t'|].
    + rewrite added_token_eqb_eq. split; (intros [H|H]; [auto|right; congruence]).
    + split; intros [H|H]; auto; discriminate.
  - split; intros [H|H]; auto; discriminate.
Qed.

Lemma add_one_ignored m normed t av next :
  is_ignored t av = true -> add_one m normed t av next = (av, next, false).
Proof.
  unfold is_ignored, add_one. intros H. apply orb_true_iff in H. destruct (is_nil (at_content t)); [reflexivity|].
  destruct H as [H|H]; [discriminate|]. rewrite H. reflexivity.
Qed.

Lemma add_one_recorded m normed t av next :
  is_ignored t av = false ->
  exists av' next' id, add_one m normed t av next = (av', next', true) /\ recorded m normed t av next av' next' id.
Proof.
  intros H. pose proof (is_ignored_spec t av) as SP. unfold is_ignored in H. apply orb_false_iff in H. destruct H as [H1 H2].
  assert (NN : ~ (at_content t = [] \/ registered av (at_content t) = Some t)).
  { rewrite <- SP. unfold is_ignored. rewrite H1, H2. discriminate. }
  unfold add_one. rewrite H1, H2.
  set (p := match av_token_to_id av m (at_content t) with Some i => (i, next) | None => (next, (next + 1)%N) end).
  assert (Hp : (av_token_to_id av m (at_content t) = Some (fst p) /\ snd p = next) \/
               (av_token_to_id av m (at_content t) = None /\ fst p = next /\ snd p = (next + 1)%N)).
  { unfold p. destruct (av_token_to_id av m (at_content t)) eqn:E; cbn; [left|right]; auto. }
  destruct p as [id nx]. cbn [fst snd] in Hp.
  eexists _, _, id. split; [reflexivity|]. constructor; cbn [av_map av_map_r av_special av_cache av_encode_special].
  - intros H. apply NN. left. exact H.
  - intros H. apply NN. right. exact H.
  - exact Hp.
  - reflexivity.
  - reflexivity.
  - intros c. destruct (at_special t) eqn:ES; cbn [andb].
    + destruct (str_mem (at_content t) (av_special av)) eqn:EM; cbn [negb].
      * apply str_mem_In in EM. split; [auto|]. intros [H|[_ ->]]; auto.
      * cbn [In]. split; [intros [H|H]; [right; auto|auto]|intros [H|[_ H]]; auto].
    + split; [auto|]. intros [H|[H _]]; [exact H|discriminate].
  - intros i n. destruct normed as [nm|]; [|auto]. destruct (at_normalized t && negb (str_eqb nm (at_content t))); [|auto].
    rewrite (aget_aset N.eqb N_eqb_eq). destruct (N.eqb i id) eqn:E; [|auto]. apply N.eqb_eq in E. subst i.
    intros H. injection H as <-. auto.
  - intros i n. destruct normed as [nm|].
    2:{ split; [intros H; right; split; [exact H|intros (_ & x & X & _); discriminate]|intros [(_ & X & _)|[H _]]; [discriminate|exact H]]. }
    destruct (at_normalized t) eqn:EN; cbn [andb].
    2:{ split; [intros H; right; split; [exact H|intros (_ & x & _ & X & _); discriminate]|intros [(_ & _ & X & _)|[H _]]; [discriminate|exact H]]. }
    destruct (str_eqb nm (at_content t)) eqn:ES; cbn [negb].
    { apply str_eqb_eq in ES. split; [intros H; right; split; [exact H|intros (_ & x & X & _ & Y); congruence]|intros [(_ & X & _ & Y)|[H _]]; [congruence|exact H]]. }
    assert (NE : nm <> at_content t) by (intros Y; apply str_eqb_eq in Y; congruence).
    rewrite (aget_aset N.eqb N_eqb_eq). destruct (N.eqb i id) eqn:E.
    + apply N.eqb_eq in E. subst i. split.
      * intros X. injection X as <-. left. auto.
      * intros [(_ & X & _)|[_ H]]; [congruence|]. exfalso. apply H. split; [reflexivity|]. exists nm. auto.
    + apply N.eqb_neq in E. split; [intros X; right; split; [exact X|intros (Y & _); congruence]|].
      intros [(Y & _)|[X _]]; [congruence|exact X].
  - reflexivity.
Qed.

(** Induction over the loop of [add_tokens]: [P] relates the state before the
    rest of the list with the number counted so far. *)
Lemma add_loop_ind m norm (P : list added_token -> added_vocab -> N -> nat -> Prop) :
  (forall t ts av next n, is_ignored t av = true -> P (t :: ts) av next n -> P ts av next n) ->
  (forall t ts av next n av' next' id normed,
      (forall x, normed = Some x -> exists f, norm = Some f /\ f (at_content t) = Some x) ->
      recorded m normed t av next av' next' id -> P (t :: ts) av next n -> P ts av' next' (n + 1)) ->
  forall ts av next n av' r, P ts av next n -> add_loop m norm ts av next n = (av', r) ->
  match r with
  | Some n' => exists next', P [] av' next' n'
  | None => exists ts' next' n', P ts' av' next' n' /\ exists p, ts = p ++ ts'
  end.
Proof.
  intros HI HR. induction ts as [|t ts IH]; intros av next n av' r HP H; cbn [add_loop] in H.
  - injection H as <- <-. eauto.
  - assert (GO : forall normed, (forall x, normed = Some x -> exists f, norm = Some f /\ f (at_content t) = Some x) ->
        (let '(av'0, next', rec) := add_one m normed t av next in
         add_loop m norm ts av'0 next' (if rec then n + 1 else n)) = (av', r) ->
        match r with
        | Some n' => exists next', P [] av' next' n'
        | None => exists ts' next' n', P ts' av' next' n' /\ exists p, t :: ts = p ++ ts'
        end).
    { intros normed HN HH. destruct (is_ignored t av) eqn:E.
      - rewrite add_one_ignored in HH by exact E. cbv iota beta in HH.
        specialize (IH av next n av' r (HI _ _ _ _ _ E HP) HH). destruct r; [exact IH|].
        destruct IH as (ts' & nx & n' & A & p & B). exists ts', nx, n'. split; [exact A|]. exists (t :: p). rewrite B. reflexivity.
      - destruct (add_one_recorded m normed t av next E) as (av1 & nx1 & id & E1 & R). rewrite E1 in HH. cbv iota beta in HH.
        specialize (IH av1 nx1 (n + 1) av' r (HR _ _ _ _ _ _ _ _ _ HN R HP) HH). destruct r; [exact IH|].
        destruct IH as (ts' & nx & n' & A & p & B). exists ts', nx, n'. split; [exact A|]. exists (t :: p). rewrite B. reflexivity. }
    destruct norm as [f|].
    + destruct (is_ignored t av || negb (at_normalized t)) eqn:E.
      * apply (GO None); [discriminate|exact H].
      * destruct (f (at_content t)) as [x|] eqn:EF.
        -- apply (GO (Some x)); [|exact H]. intros y Hy. injection Hy as <-. eauto.
        -- injection H as <- <-. exists (t :: ts), next, n. split; [exact HP|]. exists []. reflexivity.
    + apply (GO None); [discriminate|exact H].
Qed.

(** ** Facts that hold over any model *)
(** The part of the state that additions change, without the automata. *)
Definition same_core (av av' : added_vocab) : Prop :=
  av_map av' = av_map av /\ av_map_r av' = av_map_r av /\ av_special av' = av_special av.

Lemma av_refresh_core build av av' ok : av_refresh build av = (av', ok) ->
  same_core av av' /\ av_cache av' = av_cache av /\ av_encode_special av' = av_encode_special av.
Proof.
  unfold av_refresh, same_core. destruct (is_nil (plain_pairs av) || build (plain_pairs av)).
  - destruct (is_nil (normalized_pairs av) || build (normalized_pairs av)); intros H; injection H as <- <-; cbn; auto 6.
  - intros H; injection H as <- <-; auto 6.
Qed.

Lemma renormalize_core build norm av av' ok : av_refresh_normalized build norm av = (av', ok) -> same_core av av'.
Proof.
  unfold av_refresh_normalized. destruct (recache norm (av_map_r av) []) as [c [|]].
  - intros H. apply av_refresh_core in H. exact (proj1 H).
  - intros H. injection H as <- <-. repeat split.
Qed.

Lemma add_tokens_loop build m norm ts av av' r : add_tokens build m norm ts av = (av', r) ->
  exists av1 r1, add_loop m norm ts av (first_next_id av m) 0 = (av1, r1) /\ same_core av1 av' /\
                 av_cache av' = av_cache av1 /\ av_encode_special av' = av_encode_special av1 /\
                 (forall n, r = Some n -> r1 = Some n).
Proof.
  unfold add_tokens. destruct (add_loop m norm ts av (first_next_id av m) 0) as [av1 [n|]].
  - destruct (av_refresh build av1) as [av2 ok] eqn:E. intros H. injection H as <- <-.
    apply av_refresh_core in E. destruct E as (A & B & C). exists av1, (Some n). repeat split; try apply A; auto.
    intros k. destruct ok; [congruence|discriminate].
  - intros H. injection H as <- <-. exists av1, None. repeat split; auto. 
Qed.

Lemma registered_map_set m normed t av next av' next' id :
  recorded m normed t av next av' next' id ->
  forall c, aget str_eqb c (av_map av') = if str_eqb c (at_content t) then Some id else aget str_eqb c (av_map av).
Proof. intros R c. rewrite (rc_map _ _ _ _ _ _ _ _ R). apply (aget_aset str_eqb str_eqb_eq). Qed.

(** An id once given is kept. *)
Lemma recorded_keeps m normed t av next av' next' id c i :
  recorded m normed t av next av' next' id ->
  av_token_to_id av m c = Some i -> av_token_to_id av' m c = Some i.
Proof.
  intros R H. unfold av_token_to_id. rewrite (registered_map_set _ _ _ _ _ _ _ _ R).
  destruct (str_eqb c (at_content t)) eqn:E; [|exact H]. apply str_eqb_eq in E. subst c.
  destruct (rc_id _ _ _ _ _ _ _ _ R) as [[A _]|[A _]]; congruence.
Qed.

Lemma add_tokens_keeps build m norm ts av av' r c i :
  add_tokens build m norm ts av = (av', r) ->
  av_token_to_id av m c = Some i -> av_token_to_id av' m c = Some i.
Proof.
  intros H HT. apply add_tokens_loop in H. destruct H as (av1 & r1 & H & (C1 & C2 & C3) & _).
  assert (K : av_token_to_id av1 m c = Some i).
  { pose proof (add_loop_ind m norm (fun _ a _ _ => av_token_to_id a m c = Some i)) as I. cbv beta in I.
    specialize (I ltac:(auto) ltac:(intros; eapply recorded_keeps; eauto) ts av (first_next_id av m) 0 av1 r1 HT H).
    destruct r1; [destruct I as (? & I); exact I|destruct I as (? & ? & ? & I & _); exact I]. }
  unfold av_token_to_id in *. rewrite C1. exact K.
Qed.

Lemma later_keeps build m av av' c i : later build m av av' ->
  av_token_to_id av m c = Some i -> av_token_to_id av' m c = Some i.
Proof.
  intros L H. induction L as [|av1 av2 L IH E]; [exact H|]. destruct E as [a norm ts a' r E|a norm a' ok E|a b].
  - eapply add_tokens_keeps; eauto.
  - apply renormalize_core in E. destruct E as (C1 & _). unfold av_token_to_id in *. rewrite C1. auto.
  - exact (IH).
Qed.

(** ** The invariant *)
Record av_inv (m : model_vocab) (av : added_vocab) : Prop := {
  ai_keys : NoDup (map fst (av_map av));
  ai_keys_r : NoDup (map fst (av_map_r av));
  ai_fwd : forall c i, aget str_eqb c (av_map av) = Some i ->
           exists t, aget N.eqb i (av_map_r av) = Some t /\ at_content t = c;
  ai_bwd : forall i t, aget N.eqb i (av_map_r av) = Some t ->
           aget str_eqb (at_content t) (av_map av) = Some i /\ at_content t <> [];
  ai_id : forall c i, aget str_eqb c (av_map av) = Some i ->
          mv_token_to_id m c = Some i \/ (mv_token_to_id m c = None /\ (N.of_nat (mv_size m) <= i)%N);
  ai_contig : forall i j, (N.of_nat (mv_size m) <= j <= i)%N -> In i (map fst (av_map_r av)) -> In j (map fst (av_map_r av)) }.

(** [next] is the first id that is free for new tokens. *)
Definition free_from (m : model_vocab) (av : added_vocab) (next : N) : Prop :=
  (N.of_nat (mv_size m) <= next)%N /\
  (forall i, In i (map fst (av_map_r av)) -> (i < next)%N) /\
  (forall j, (N.of_nat (mv_size m) <= j < next)%N -> In j (map fst (av_map_r av))).

Lemma fold_max_ge l : forall x y, (x <= fold_left N.max l (N.max x y))%N.
Proof.
  induction l as [|a l IH]; intros x y; cbn; [lia|]. rewrite <- N.max_assoc. apply IH.
Qed.

Lemma list_max_N_spec l : match list_max_N l with
                          | None => l = []
                          | Some mx => In mx l /\ forall x, In x l -> (x <= mx)%N
                          end.
Proof.
  destruct l as [|x l]; cbn [list_max_N]; [reflexivity|].
  revert x. induction l as [|a l IH]; intros x; cbn [fold_left].
  - split; [left; reflexivity|]. intros y [->|[]]. lia.
  - specialize (IH (N.max x a)). destruct IH as [H1 H2]. split.
    + destruct H1 as [H1|H1]; [|right; right; exact H1]. rewrite <- H1. destruct (N.max_spec x a) as [[_ ->]|[_ ->]]; cbn; auto.
    + intros y [<-|[<-|H]].
      * apply fold_max_ge.
      * rewrite N.max_comm. apply fold_max_ge.
      * apply H2. right. exact H.
Qed.

Lemma first_next_free m av : dense m -> av_inv m av -> free_from m av (first_next_id av m).
Proof.
  intros D I. unfold first_next_id. pose proof (list_max_N_spec (map fst (av_map_r av))) as M.
  destruct (list_max_N (map fst (av_map_r av))) as [mx|].
  - destruct M as [M1 M2]. destruct ((N.of_nat (mv_size m) <=? mx)%N || (N.of_nat (mv_size m) =? 0)%N) eqn:E.
    + assert (N.of_nat (mv_size m) <= mx)%N by lia. split; [lia|]. split.
      * intros i Hi. apply M2 in Hi. lia.
      * intros j Hj. apply (ai_contig _ _ I mx); [lia|exact M1].
    + split; [lia|]. split; [intros i Hi; apply M2 in Hi; lia|intros; lia].
  - split; [lia|]. rewrite M. split; [intros i []|intros; lia].
Qed.

Lemma recorded_inv m normed t av next av' next' id :
  model_ok m -> dense m -> recorded m normed t av next av' next' id ->
  av_inv m av -> free_from m av next -> av_inv m av' /\ free_from m av' next'.
Proof.
  intros MO D R I (F1 & F2 & F3).
  pose proof (rc_map _ _ _ _ _ _ _ _ R) as EM. pose proof (rc_map_r _ _ _ _ _ _ _ _ R) as ER.
  pose proof (registered_map_set _ _ _ _ _ _ _ _ R) as GM.
  assert (GR : forall i, aget N.eqb i (av_map_r av') = if N.eqb i id then Some t else aget N.eqb i (av_map_r av)).
  { intros i. rewrite ER. apply (aget_aset N.eqb N_eqb_eq). }
  (* the id is that of this content only *)
  assert (U1 : forall t', aget N.eqb id (av_map_r av) = Some t' -> at_content t' = at_content t).
  { intros t' H. destruct (rc_id _ _ _ _ _ _ _ _ R) as [[A _]|[A [-> _]]].
    - unfold av_token_to_id in A. destruct (ai_bwd _ _ I _ _ H) as [B _].
      destruct (aget str_eqb (at_content t) (av_map av)) as [j|] eqn:E.
      + injection A as ->. destruct (ai_fwd _ _ I _ _ E) as (t2 & B1 & B2). congruence.
      + destruct (ai_id _ _ I _ _ B) as [B1|[B1 B2]].
        * apply (mo_back _ MO) in A. apply (mo_back _ MO) in B1. congruence.
        * apply D in A. lia.
    - exfalso. apply (aget_In N.eqb N_eqb_eq) in H. apply (in_map fst) in H. apply F2 in H. cbn in H. lia. }
  assert (U2 : forall c, aget str_eqb c (av_map av) = Some id -> c = at_content t).
  { intros c H. destruct (ai_fwd _ _ I _ _ H) as (t' & B1 & B2). rewrite <- B2. apply U1. exact B1. }
  assert (KR : forall x, In x (map fst (av_map_r av')) <-> x = id \/ In x (map fst (av_map_r av))).
  { intros x. rewrite ER. apply (aset_keys_in N.eqb N_eqb_eq). }
  assert (IDK : (id < N.of_nat (mv_size m))%N \/ In id (map fst (av_map_r av)) \/ id = next /\ next' = (next + 1)%N).
  { destruct (rc_id _ _ _ _ _ _ _ _ R) as [[A _]|[A [B C]]]; [|auto].
    unfold av_token_to_id in A. destruct (aget str_eqb (at_content t) (av_map av)) as [j|] eqn:E.
    - injection A as ->. destruct (ai_fwd _ _ I _ _ E) as (t2 & B1 & _). right; left.
      apply (aget_In N.eqb N_eqb_eq) in B1. apply (in_map fst) in B1. exact B1.
    - left. apply D in A. exact A. }
  assert (NX : next' = next \/ id = next /\ next' = (next + 1)%N).
  { destruct (rc_id _ _ _ _ _ _ _ _ R) as [[_ ?]|[_ ?]]; auto. }
  split.
  - constructor.
    + rewrite EM. apply (aset_nodup str_eqb str_eqb_eq). apply (ai_keys _ _ I).
    + rewrite ER. apply (aset_nodup N.eqb N_eqb_eq). apply (ai_keys_r _ _ I).
    + intros c i. rewrite GM, GR. destruct (str_eqb c (at_content t)) eqn:E.
      * intros H. injection H as <-. rewrite N.eqb_refl. apply str_eqb_eq in E. eauto.
      * intros H. destruct (N.eqb i id) eqn:E2.
        -- apply N.eqb_eq in E2. subst i. apply U2 in H. subst c. rewrite str_eqb_refl in E. discriminate.
        -- apply (ai_fwd _ _ I). exact H.
    + intros i t'. rewrite GM, GR. destruct (N.eqb i id) eqn:E2.
      * intros H. injection H as <-. apply N.eqb_eq in E2. subst i. rewrite str_eqb_refl. split; [reflexivity|].
        apply (rc_nonempty _ _ _ _ _ _ _ _ R).
      * intros H. destruct (ai_bwd _ _ I _ _ H) as [B1 B2]. split; [|exact B2].
        destruct (str_eqb (at_content t') (at_content t)) eqn:E; [|exact B1]. exfalso. apply str_eqb_eq in E.
        rewrite E in B1. destruct (rc_id _ _ _ _ _ _ _ _ R) as [[A _]|[A _]]; unfold av_token_to_id in A; rewrite B1 in A.
        -- injection A as ->. rewrite N.eqb_refl in E2. discriminate.
        -- discriminate.
    + intros c i. rewrite GM. destruct (str_eqb c (at_content t)) eqn:E; [|apply (ai_id _ _ I)].
      intros H. injection H as <-. apply str_eqb_eq in E. subst c.
      destruct (rc_id _ _ _ _ _ _ _ _ R) as [[A _]|[A [-> _]]]; unfold av_token_to_id in A.
      * destruct (aget str_eqb (at_content t) (av_map av)) as [j|] eqn:E.
        -- injection A as ->. apply (ai_id _ _ I). exact E.
        -- left. exact A.
      * destruct (aget str_eqb (at_content t) (av_map av)); [discriminate|]. right. split; [exact A|lia].
    + intros i j Hj Hi. rewrite KR in *. destruct Hi as [->|Hi].
      * destruct IDK as [K|[K|[K1 K2]]]; [lia|right; eapply (ai_contig _ _ I); eauto|].
        destruct (N.eq_dec j id) as [->|NE]; [auto|]. right. apply F3. lia.
      * right. eapply (ai_contig _ _ I); eauto.
  - split; [lia|]. split.
    + intros i Hi. apply KR in Hi. destruct Hi as [->|Hi].
      * destruct IDK as [K|[K|K]]; [lia| |lia]. apply F2 in K. lia.
      * apply F2 in Hi. lia.
    + intros j Hj. apply KR. destruct NX as [->|[-> ->]]; [right; apply F3; lia|].
      destruct (N.eq_dec j next) as [->|NE]; [auto|right; apply F3; lia].
Qed.

Lemma av_inv_core m av av' : same_core av av' -> av_inv m av -> av_inv m av'.
Proof. intros (C1 & C2 & _) [A B C D E F]. constructor; rewrite ?C1, ?C2; auto. Qed.

Lemma add_loop_inv m norm ts av next n av' r :
  model_ok m -> dense m -> av_inv m av -> free_from m av next ->
  add_loop m norm ts av next n = (av', r) -> av_inv m av' /\ exists next', free_from m av' next'.
Proof.
  intros MO D I F H.
  pose proof (add_loop_ind m norm (fun _ a nx _ => av_inv m a /\ free_from m a nx)) as X. cbv beta in X.
  specialize (X ltac:(auto) ltac:(intros ? ? ? ? ? ? ? ? ? ? ? [? ?]; eapply recorded_inv; eauto) ts av next n av' r (conj I F) H).
  destruct r; [destruct X as (? & ? & ?)|destruct X as (? & ? & ? & (? & ?) & _)]; eauto.
Qed.

Lemma add_tokens_inv build m norm ts av av' r :
  model_ok m -> dense m -> av_inv m av -> add_tokens build m norm ts av = (av', r) -> av_inv m av'.
Proof.
  intros MO D I H. apply add_tokens_loop in H. destruct H as (av1 & r1 & H & C & _).
  eapply av_inv_core; [exact C|]. eapply add_loop_inv; eauto. apply first_next_free; assumption.
Qed.

Lemma av_new_inv m : av_inv m av_new.
Proof. constructor; cbn; try constructor; try discriminate. intros i j _ []. Qed.

Lemma history_inv build m NF av offered taken :
  model_ok m -> dense m -> added_history build m NF av offered taken -> av_inv m av.
Proof.
  intros MO D H. induction H.
  - apply av_new_inv.
  - eapply add_tokens_inv; eauto.
  - eapply add_tokens_inv; eauto.
  - eapply av_inv_core; [eapply renormalize_core; eauto|assumption].
  - eapply av_inv_core; [|exact IHadded_history]. repeat split.
Qed.

(** ** Keys are distinct over any model *)
Lemma keys_history build m NF av offered taken :
  added_history build m NF av offered taken -> NoDup (map fst (av_map av)) /\
  forall c i, aget str_eqb c (av_map av) = Some i -> forall j, mv_token_to_id m c = Some j -> i = j.
Proof.
  set (Q := fun a => NoDup (map fst (av_map a)) /\
     forall c i, aget str_eqb c (av_map a) = Some i -> forall j, mv_token_to_id m c = Some j -> i = j).
  assert (QC : forall a b, same_core a b -> Q a -> Q b).
  { intros a b (C1 & _) [X Y]. unfold Q. rewrite C1. split; assumption. }
  assert (QA : forall norm ts a b r, Q a -> add_tokens build m norm ts a = (b, r) -> Q b).
  { intros norm ts a b r HQ H. apply add_tokens_loop in H. destruct H as (av1 & r1 & H & C & _). apply (QC _ _ C).
    pose proof (add_loop_ind m norm (fun _ a _ _ => Q a)) as X. cbv beta in X.
    assert (ST : forall (t : added_token) (ts0 : list added_token) (av0 : added_vocab) (next : N) (n : nat)
       (av' : added_vocab) (next' id : N) (normed : option str),
     (forall x, normed = Some x -> exists f, norm = Some f /\ f (at_content t) = Some x) ->
     recorded m normed t av0 next av' next' id -> Q av0 -> Q av').
    { intros t _ a0 nx _ a1 nx1 id normed _ R [X1 X2]. split.
      - rewrite (rc_map _ _ _ _ _ _ _ _ R). apply (aset_nodup str_eqb str_eqb_eq). exact X1.
      - intros c i Hc j Hj. rewrite (registered_map_set _ _ _ _ _ _ _ _ R) in Hc.
        destruct (str_eqb c (at_content t)) eqn:E; [|eapply X2; eauto]. injection Hc as <-. apply str_eqb_eq in E. subst c.
        destruct (rc_id _ _ _ _ _ _ _ _ R) as [[A _]|[A _]]; unfold av_token_to_id in A;
          destruct (aget str_eqb (at_content t) (av_map a0)) eqn:E2; try congruence.
        injection A as ->. eapply X2; eauto. }
    specialize (X ltac:(auto) ST ts a (first_next_id a m) 0 av1 r1 HQ H).
    destruct r1; [destruct X as (? & X)|destruct X as (? & ? & ? & X & _)]; exact X. }
  intros H. change (Q av). induction H.
  - split; cbn; [constructor|discriminate].
  - eapply QA; eauto.
  - eapply QA; eauto.
  - eapply QC; [eapply renormalize_core; eauto|assumption].
  - eapply QC; [|exact IHadded_history]. repeat split.
Qed.

(** ** The cache of normalised forms *)
Lemma recache_from norm l : forall c c' ok, recache norm l c = (c', ok) ->
  forall i n, aget N.eqb i c' = Some n ->
  aget N.eqb i c = Some n \/ exists t f, In (i, t) l /\ norm = Some f /\ f (at_content t) = Some n.
Proof.
  induction l as [|[j t] l IH]; intros c c' ok H i n G; cbn [recache] in H; [injection H as <- <-; auto|].
  assert (SK : forall c1, recache norm l c1 = (c', ok) -> aget N.eqb i c1 = Some n \/
                 exists t0 f, In (i, t0) ((j, t) :: l) /\ norm = Some f /\ f (at_content t0) = Some n).
  { intros c1 H1. destruct (IH _ _ _ H1 _ _ G) as [|(t0 & f & A & B & C)]; [auto|]. right. exists t0, f. split; [right; exact A|auto]. }
  destruct norm as [f|]; [|apply SK; exact H].
  destruct (at_normalized t); [|apply SK; exact H].
  destruct (f (at_content t)) as [x|] eqn:EF; [|injection H as <- <-; auto].
  apply SK in H. destruct H as [H|H]; [|auto]. destruct (str_eqb x (at_content t)); [auto|].
  rewrite (aget_aset N.eqb N_eqb_eq) in H. destruct (N.eqb i j) eqn:E; [|auto]. apply N.eqb_eq in E. subst j.
  injection H as ->. right. exists t, f. split; [left; reflexivity|auto].
Qed.

(** Cached forms are normalised forms of the token of that id. *)
Definition cache_inv (NF : (str -> option str) -> Prop) (av : added_vocab) : Prop :=
  forall i n, aget N.eqb i (av_cache av) = Some n ->
  exists t f, aget N.eqb i (av_map_r av) = Some t /\ NF f /\ f (at_content t) = Some n.

Lemma cache_history build m NF av offered taken :
  model_ok m -> dense m -> added_history build m NF av offered taken -> cache_inv NF av.
Proof.
  intros MO D H.
  assert (QA : forall norm ts a b r, (forall f, norm = Some f -> NF f) -> av_inv m a -> cache_inv NF a ->
                add_tokens build m norm ts a = (b, r) -> cache_inv NF b).
  { intros norm ts a b r HN IA CA HA. apply add_tokens_loop in HA. destruct HA as (av1 & r1 & HA & (C1 & C2 & C3) & C4 & _).
    assert (K : cache_inv NF av1).
    { pose proof (add_loop_ind m norm (fun _ a nx _ => (av_inv m a /\ free_from m a nx) /\ cache_inv NF a)) as X. cbv beta in X.
      assert (ST : forall (t : added_token) (ts0 : list added_token) (av0 : added_vocab) (next : N) (n : nat)
        (av' : added_vocab) (next' id : N) (normed : option str),
        (forall x, normed = Some x -> exists f, norm = Some f /\ f (at_content t) = Some x) ->
        recorded m normed t av0 next av' next' id -> (av_inv m av0 /\ free_from m av0 next) /\ cache_inv NF av0 ->
        (av_inv m av' /\ free_from m av' next') /\ cache_inv NF av').
      { intros t _ a0 nx _ a1 nx1 id normed HNF R [[I0 F0] CI]. 
        pose proof (recorded_inv _ _ _ _ _ _ _ _ MO D R I0 F0) as [I1 F1]. split; [auto|].
        intros i n Hi. rewrite (rc_map_r _ _ _ _ _ _ _ _ R), (aget_aset N.eqb N_eqb_eq).
        destruct (rc_cache _ _ _ _ _ _ _ _ R _ _ Hi) as [Hc|[-> Hn]].
        - destruct (CI _ _ Hc) as (t0 & f & A & B & C). destruct (N.eqb i id) eqn:E; [|eauto]. apply N.eqb_eq in E. subst i.
          exists t, f. split; [reflexivity|]. split; [exact B|].
          destruct (ai_bwd _ _ I0 _ _ A) as [B1 _].
          assert (av_token_to_id a1 m (at_content t0) = Some id).
          { eapply recorded_keeps; [exact R|]. unfold av_token_to_id. rewrite B1. reflexivity. }
          unfold av_token_to_id in H0. rewrite (registered_map_set _ _ _ _ _ _ _ _ R) in H0.
          destruct (str_eqb (at_content t0) (at_content t)) eqn:E; [apply str_eqb_eq in E; congruence|].
          exfalso. rewrite B1 in H0.
          assert (aget str_eqb (at_content t0) (av_map a1) = Some id) by (rewrite (registered_map_set _ _ _ _ _ _ _ _ R), E; exact B1).
          destruct (ai_fwd _ _ I1 _ _ H1) as (t2 & X1 & X2). rewrite (rc_map_r _ _ _ _ _ _ _ _ R), (aget_aset N.eqb N_eqb_eq), N.eqb_refl in X1.
          injection X1 as <-. rewrite X2, str_eqb_refl in E. discriminate.
        - rewrite N.eqb_refl. destruct (HNF _ Hn) as (f & A & B). exists t, f. split; [reflexivity|]. split; [apply HN; exact A|exact B]. }
      specialize (X ltac:(auto) ST ts a (first_next_id a m) 0 av1 r1 (conj (conj IA (first_next_free _ _ D IA)) CA) HA).
      destruct r1; [destruct X as (? & _ & X)|destruct X as (? & ? & ? & (_ & X) & _)]; exact X. }
    intros i n Hi. rewrite C4 in Hi. rewrite C2. apply K. exact Hi. }
  induction H.
  - intros i n Hi. discriminate.
  - eapply QA; eauto. eapply history_inv; eauto.
  - eapply QA; eauto. eapply history_inv; eauto.
  - pose proof (renormalize_core _ _ _ _ _ H1) as (_ & C2 & _).
    unfold av_refresh_normalized in H1. destruct (recache norm (av_map_r av) []) as [c ok'] eqn:EC.
    assert (AC : av_cache av' = c).
    { destruct ok'; [apply av_refresh_core in H1; exact (proj1 (proj2 H1))|injection H1 as <- <-; reflexivity]. }
    intros i n Hi. rewrite AC in Hi. destruct (recache_from _ _ _ _ _ EC _ _ Hi) as [X|(t & f & A & B & C)]; [discriminate|].
    exists t, f. rewrite C2. split; [|split; [apply H0; exact B|exact C]].
    apply (In_aget N.eqb N_eqb_eq); [|exact A]. apply (ai_keys_r m). eapply history_inv; eauto.
  - exact IHadded_history.
Qed.
