(** Counting, vocabulary size, special tokens, saving and loading. *)
From Verif Require Import Base StrBytes ListFacts AMap EncodingModel NormModel PreTokModel AddedModel AddedSpec AddedProofs.
From Coq Require Import Sorting.Sorted Sorting.Permutation.

Definition normed_by (norm : option (str -> option str)) (t : added_token) (normed : option str) : Prop :=
  forall x, normed = Some x -> exists f, norm = Some f /\ f (at_content t) = Some x.

Lemma add_loop_step m norm t ts av next n av' n' :
  add_loop m norm (t :: ts) av next n = (av', Some n') ->
  (is_ignored t av = true /\ add_loop m norm ts av next n = (av', Some n')) \/
  (is_ignored t av = false /\ exists normed av1 next1 id,
      add_one m normed t av next = (av1, next1, true) /\
      (at_normalized t = true -> forall f, norm = Some f -> normed = f (at_content t)) /\
      recorded m normed t av next av1 next1 id /\ normed_by norm t normed /\
      add_loop m norm ts av1 next1 (n + 1) = (av', Some n')).
Proof.
  intros H. cbn [add_loop] in H.
  assert (GO : forall normed, normed_by norm t normed ->
       (is_ignored t av = false -> at_normalized t = true -> forall f, norm = Some f -> normed = f (at_content t)) ->
      (let '(av'0, next', rec) := add_one m normed t av next in
       add_loop m norm ts av'0 next' (if rec then n + 1 else n)) = (av', Some n') ->
      (is_ignored t av = true /\ add_loop m norm ts av next n = (av', Some n')) \/
      (is_ignored t av = false /\ exists normed av1 next1 id,
          add_one m normed t av next = (av1, next1, true) /\
          (at_normalized t = true -> forall f, norm = Some f -> normed = f (at_content t)) /\
          recorded m normed t av next av1 next1 id /\ normed_by norm t normed /\
          add_loop m norm ts av1 next1 (n + 1) = (av', Some n'))).
  { intros normed HN HX HH. destruct (is_ignored t av) eqn:E.
    - rewrite add_one_ignored in HH by exact E. left. auto.
    - destruct (add_one_recorded m normed t av next E) as (av1 & nx1 & id & E1 & R). rewrite E1 in HH. right. split; [reflexivity|].
      exists normed, av1, nx1, id. auto. }
  destruct norm as [f|].
  - destruct (is_ignored t av || negb (at_normalized t)) eqn:E.
    + apply (GO None); [discriminate| |exact H]. intros A B. rewrite A, B in E. discriminate.
    + destruct (f (at_content t)) as [x|] eqn:EF; [|discriminate].
      apply (GO (Some x)); [| |exact H].
      * intros y Hy. injection Hy as <-. exists f. auto.
      * intros _ _ f' Hf. injection Hf as <-. auto.
  - apply (GO None); [discriminate|discriminate|exact H].
Qed.

Lemma recorded_registered m normed t av next av' next' id :
  av_inv m av -> av_inv m av' -> recorded m normed t av next av' next' id ->
  forall c, registered av' c = upd (registered av) t c.
Proof.
  intros I I' R c. unfold registered, upd. rewrite (registered_map_set _ _ _ _ _ _ _ _ R).
  pose proof (registered_map_set _ _ _ _ _ _ _ _ R c) as GC.
  rewrite (rc_map_r _ _ _ _ _ _ _ _ R).
  destruct (str_eqb c (at_content t)) eqn:E.
  - rewrite (aget_aset N.eqb N_eqb_eq), N.eqb_refl. reflexivity.
  - destruct (aget str_eqb c (av_map av)) as [i|]; [|reflexivity]. rewrite (aget_aset N.eqb N_eqb_eq).
    destruct (N.eqb i id) eqn:E2; [|reflexivity]. exfalso. apply N.eqb_eq in E2. subst i.
    destruct (ai_fwd _ _ I' _ _ GC) as (t' & X1 & X2).
    rewrite (rc_map_r _ _ _ _ _ _ _ _ R), (aget_aset N.eqb N_eqb_eq), N.eqb_refl in X1. injection X1 as <-.
    rewrite X2, str_eqb_refl in E. discriminate.
Qed.

Lemma adding_ext cur ts n cur' : adding cur ts n cur' ->
  forall cur2, (forall c, cur c = cur2 c) -> exists cur2', adding cur2 ts n cur2' /\ forall c, cur' c = cur2' c.
Proof.
  intros H. induction H as [cur|cur t ts n cur' N H IH|cur t ts n cur' N H IH]; intros cur2 E.
  - exists cur2. split; [constructor|exact E].
  - destruct (IH (upd cur2 t)) as (c2 & A & B).
    + intros c. unfold upd. destruct (str_eqb c (at_content t)); auto.
    + exists c2. split; [|exact B]. apply adding_new; [|exact A]. destruct N as [N1 N2]. split; [exact N1|]. rewrite <- E. exact N2.
  - destruct (IH cur2 E) as (c2 & A & B). exists c2. split; [|exact B]. apply adding_old; [|exact A].
    intros [N1 N2]. apply N. split; [exact N1|]. rewrite E. exact N2.
Qed.

Lemma add_loop_adding m norm : model_ok m -> dense m -> forall ts av next n av' n',
  av_inv m av -> free_from m av next -> add_loop m norm ts av next n = (av', Some n') ->
  exists k cur', adding (registered av) ts k cur' /\ n' = n + k /\ forall c, registered av' c = cur' c.
Proof.
  intros MO D. induction ts as [|t ts IH]; intros av next n av' n' I F H.
  - cbn in H. injection H as <- <-. exists 0, (registered av). split; [constructor|]. split; [lia|reflexivity].
  - apply add_loop_step in H. destruct H as [[IG H]|(IG & normed & av1 & nx1 & id & _ & _ & R & _ & H)].
    + destruct (IH _ _ _ _ _ I F H) as (k & cur' & A & B & C). exists k, cur'. split; [|auto].
      apply adding_old; [|exact A]. apply is_ignored_spec in IG. intros [N1 N2]. destruct IG; auto.
    + destruct (recorded_inv _ _ _ _ _ _ _ _ MO D R I F) as [I1 F1].
      destruct (IH _ _ _ _ _ I1 F1 H) as (k & cur' & A & B & C).
      destruct (adding_ext _ _ _ _ A (upd (registered av) t) (recorded_registered _ _ _ _ _ _ _ _ I I1 R)) as (c2 & A2 & E2).
      exists (S k), c2. split; [|split; [lia|]].
      * apply adding_new; [|exact A2]. split; [apply (rc_nonempty _ _ _ _ _ _ _ _ R)|apply (rc_new _ _ _ _ _ _ _ _ R)].
      * intros c. rewrite C, E2. reflexivity.
Qed.

Lemma same_core_registered av av' : same_core av av' -> forall c, registered av' c = registered av c.
Proof. intros (C1 & C2 & _) c. unfold registered. rewrite C1, C2. reflexivity. Qed.

Lemma add_tokens_adding build m norm ts av av' n : model_ok m -> dense m -> av_inv m av ->
  add_tokens build m norm ts av = (av', Some n) ->
  exists cur', adding (registered av) ts n cur' /\ forall c, registered av' c = cur' c.
Proof.
  intros MO D I H. apply add_tokens_loop in H. destruct H as (av1 & r1 & H & C & _ & _ & E).
  rewrite (E n eq_refl) in H.
  destruct (add_loop_adding _ _ MO D _ _ _ _ _ _ I (first_next_free _ _ D I) H) as (k & cur' & A & B & R).
  cbn in B. subst n. exists cur'. split; [exact A|]. intros c. rewrite (same_core_registered _ _ C). apply R.
Qed.

Lemma adding_keeps cur ts n cur' t : adding cur ts n cur' -> at_content t <> [] ->
  (forall u, In u ts -> at_content u = at_content t -> u = t) -> cur (at_content t) = Some t -> cur' (at_content t) = Some t.
Proof.
  intros H NE. induction H as [cur|cur x ts n cur' N H IH|cur x ts n cur' N H IH]; intros U E; [exact E| |].
  - apply IH; [intros u Hu; apply U; right; exact Hu|]. unfold upd. destruct (str_eqb (at_content t) (at_content x)) eqn:EQ; [|exact E].
    apply str_eqb_eq in EQ. f_equal. apply U; [left; reflexivity|auto].
  - apply IH; [intros u Hu; apply U; right; exact Hu|exact E].
Qed.

Lemma adding_registers cur ts n cur' : adding cur ts n cur' -> consistent ts ->
  forall t, In t ts -> at_content t <> [] -> cur' (at_content t) = Some t.
Proof.
  intros H. induction H as [cur|cur x ts n cur' N H IH|cur x ts n cur' N H IH]; intros CO t Ht NE; [destruct Ht| |].
  - assert (CO' : consistent ts) by (intros a b Ha Hb; apply CO; right; assumption).
    destruct Ht as [->|Ht]; [|apply IH; auto]. eapply adding_keeps; [exact H|exact NE| |].
    + intros u Hu E. apply CO; [right; exact Hu|left; reflexivity|exact E].
    + unfold upd. rewrite str_eqb_refl. reflexivity.
  - assert (CO' : consistent ts) by (intros a b Ha Hb; apply CO; right; assumption).
    destruct Ht as [->|Ht]; [|apply IH; auto].
    assert (EQ : cur (at_content t) = Some t).
    { destruct (cur (at_content t)) as [u|] eqn:E.
      - destruct (added_token_eqb u t) eqn:EE; [apply added_token_eqb_eq in EE; congruence|].
        exfalso. apply N. split; [exact NE|]. rewrite E. intros X. injection X as ->.
        rewrite (proj2 (added_token_eqb_eq t t) eq_refl) in EE. discriminate.
      - exfalso. apply N. split; [exact NE|]. rewrite E. discriminate. }
    eapply adding_keeps; [exact H|exact NE| |exact EQ].
    intros u Hu E. apply CO; [right; exact Hu|left; reflexivity|exact E].
Qed.

Lemma add_loop_ignored m norm : forall ts av next n,
  (forall t, In t ts -> is_ignored t av = true) -> add_loop m norm ts av next n = (av, Some n).
Proof.
  induction ts as [|t ts IH]; intros av next n H; [reflexivity|]. cbn [add_loop].
  assert (G : is_ignored t av = true) by (apply H; left; reflexivity).
  assert (R : add_loop m norm ts av next n = (av, Some n)) by (apply IH; intros u Hu; apply H; right; exact Hu).
  rewrite G. cbn [orb]. destruct norm; rewrite add_one_ignored by exact G; exact R.
Qed.

Lemma refresh_idem build av av' : av_refresh build av = (av', true) -> av_refresh build av' = (av', true).
Proof.
  unfold av_refresh. destruct (is_nil (plain_pairs av) || build (plain_pairs av)) eqn:E1; [|discriminate].
  destruct (is_nil (normalized_pairs av) || build (normalized_pairs av)) eqn:E2; [|discriminate].
  intros H. injection H as <-. unfold plain_pairs, normalized_pairs in *. cbn [av_map_r av_cache av_map av_special av_encode_special].
  rewrite E1, E2. reflexivity.
Qed.

Lemma add_tokens_again build m norm norm' ts av av' n : model_ok m -> dense m -> av_inv m av -> consistent ts ->
  add_tokens build m norm ts av = (av', Some n) -> add_tokens build m norm' ts av' = (av', Some 0).
Proof.
  intros MO D I CO H.
  destruct (add_tokens_adding _ _ _ _ _ _ _ MO D I H) as (cur' & A & R).
  assert (REF : av_refresh build av' = (av', true)).
  { unfold add_tokens in H. destruct (add_loop m norm ts av (first_next_id av m) 0) as [av1 [k|]]; [|discriminate].
    destruct (av_refresh build av1) as [av2 ok] eqn:E. destruct ok; [|discriminate]. injection H as <- <-. eapply refresh_idem. exact E. }
  unfold add_tokens. rewrite add_loop_ignored; [rewrite REF; reflexivity|].
  intros t Ht. apply is_ignored_spec. destruct (list_eq_dec N.eq_dec (at_content t) []) as [E|E]; [auto|]. right.
  rewrite R. eapply adding_registers; eauto.
Qed.

Lemma adding_le cur ts n cur' : adding cur ts n cur' -> n <= length ts.
Proof. intros H. induction H; cbn [length]; lia. Qed.

Lemma adding_fresh cur ts n cur' : adding cur ts n cur' ->
  NoDup (map at_content ts) -> (forall t, In t ts -> at_content t <> [] /\ cur (at_content t) = None) -> n = length ts.
Proof.
  intros H. induction H as [cur|cur x ts n cur' N H IH|cur x ts n cur' N H IH]; intros ND F; cbn [length map] in *; [reflexivity| |].
  - inversion ND as [|? ? D1 D2]; subst. rewrite IH; [reflexivity|exact D2|]. intros t Ht. destruct (F t (or_intror Ht)) as [F1 F2].
    split; [exact F1|]. unfold upd. destruct (str_eqb (at_content t) (at_content x)) eqn:E; [|exact F2].
    apply str_eqb_eq in E. exfalso. apply D1. rewrite <- E. apply in_map. exact Ht.
  - exfalso. destruct (F x (or_introl eq_refl)) as [F1 F2]. apply N. split; [exact F1|]. rewrite F2. discriminate.
Qed.

(** ** Size of the vocabulary *)
Lemma get_vocab_lookup (l : list (str * N)) : forall acc c, NoDup (map fst l) ->
  aget str_eqb c (fold_left (fun a ti => aset str_eqb (fst ti) (snd ti) a) l acc) =
  match aget str_eqb c l with Some i => Some i | None => aget str_eqb c acc end.
Proof.
  induction l as [|[t i] l IH]; intros acc c D; [reflexivity|]. cbn [fold_left map fst snd] in *. inversion D as [|? ? D1 D2]; subst.
  rewrite IH by exact D2. cbn [aget]. rewrite (aget_aset str_eqb str_eqb_eq). destruct (str_eqb c t) eqn:E; [|reflexivity].
  apply str_eqb_eq in E. subst c. apply (aget_none str_eqb str_eqb_eq) in D1. rewrite D1. reflexivity.
Qed.

Lemma get_vocab_nodup (l : list (str * N)) : forall acc, NoDup (map fst acc) ->
  NoDup (map fst (fold_left (fun a ti => aset str_eqb (fst ti) (snd ti) a) l acc)).
Proof.
  induction l as [|[t i] l IH]; intros acc D; [exact D|]. cbn [fold_left fst snd]. apply IH. apply (aset_nodup str_eqb str_eqb_eq). exact D.
Qed.

Lemma filter_ext' {A} (f g : A -> bool) l : (forall x, In x l -> f x = g x) -> filter f l = filter g l.
Proof.
  induction l as [|a l IH]; intros H; [reflexivity|]. cbn. rewrite (H a) by (left; reflexivity).
  rewrite IH by (intros x Hx; apply H; right; exact Hx). reflexivity.
Qed.

Lemma get_vocab_len (l : list (str * N)) : forall acc, NoDup (map fst l) ->
  length (fold_left (fun a ti => aset str_eqb (fst ti) (snd ti) a) l acc)
  + length (filter (fun ti => amem str_eqb (fst ti) acc) l) = length acc + length l.
Proof.
  induction l as [|[t i] l IH]; intros acc D; [cbn; lia|]. cbn [fold_left map fst snd filter] in *.
  inversion D as [|? ? D1 D2]; subst.
  specialize (IH (aset str_eqb t i acc) D2). rewrite (aset_len str_eqb str_eqb_eq) in IH.
  assert (E : filter (fun ti => amem str_eqb (fst ti) (aset str_eqb t i acc)) l = filter (fun ti => amem str_eqb (fst ti) acc) l).
  { apply filter_ext'. intros [x j] Hx. cbn [fst]. unfold amem. rewrite (aget_aset_other str_eqb str_eqb_eq); [reflexivity|].
    intros ->. apply D1. apply (in_map fst) in Hx. exact Hx. }
  rewrite E in IH. destruct (amem str_eqb t acc); cbn [length]; lia.
Qed.

Lemma aget_vocab m t i : model_ok m -> aget str_eqb t (mv_vocab m) = Some i <-> mv_token_to_id m t = Some i.
Proof.
  intros MO. rewrite (mo_read _ MO). split.
  - apply (aget_In str_eqb str_eqb_eq).
  - apply (In_aget str_eqb str_eqb_eq). apply (mo_keys _ MO).
Qed.

Lemma vocab_size m av : model_ok m -> NoDup (map fst (av_map av)) ->
  get_vocab_size m av true = Ok (length (get_vocab m av true)).
Proof.
  intros MO D. unfold get_vocab_size, get_vocab. pose proof (get_vocab_len (av_map av) (mv_vocab m) D) as L.
  assert (E : filter (fun ti => match mv_token_to_id m (fst ti) with Some _ => true | None => false end) (av_map av)
              = filter (fun ti => amem str_eqb (fst ti) (mv_vocab m)) (av_map av)).
  { apply filter_ext'. intros [t i] _. cbn [fst]. unfold amem.
    destruct (mv_token_to_id m t) as [j|] eqn:E1; destruct (aget str_eqb t (mv_vocab m)) as [k|] eqn:E2; try reflexivity.
    - apply (aget_vocab _ _ _ MO) in E1. congruence.
    - apply (aget_vocab _ _ _ MO) in E2. congruence. }
  rewrite E, (mo_size _ MO). match goal with |- context [if ?b then _ else _] => replace b with true by lia end.
  f_equal. lia.
Qed.

(** ** Special tokens *)
(** Registered special tokens are in the special set. *)
Definition special_inv (av : added_vocab) : Prop :=
  forall i t, aget N.eqb i (av_map_r av) = Some t -> at_special t = true -> In (at_content t) (av_special av).

Lemma recorded_special m normed t av next av' next' id :
  recorded m normed t av next av' next' id -> special_inv av -> special_inv av'.
Proof.
  intros R S i u H HS. apply (rc_special _ _ _ _ _ _ _ _ R).
  rewrite (rc_map_r _ _ _ _ _ _ _ _ R), (aget_aset N.eqb N_eqb_eq) in H. destruct (N.eqb i id).
  - injection H as <-. auto.
  - left. eapply S; eauto.
Qed.

Lemma loop_special m norm ts av next n av' r :
  special_inv av -> add_loop m norm ts av next n = (av', r) ->
  special_inv av' /\ (forall c, In c (av_special av) -> In c (av_special av')) /\
  (forall c, In c (av_special av') -> In c (av_special av) \/ exists t, In t ts /\ at_special t = true /\ at_content t = c /\ c <> []).
Proof.
  intros S0 H.
  pose proof (add_loop_ind m norm (fun rest a _ _ => (exists p, ts = p ++ rest) /\ special_inv a /\
    (forall c, In c (av_special av) -> In c (av_special a)) /\
    (forall c, In c (av_special a) -> In c (av_special av) \/ exists t, In t ts /\ at_special t = true /\ at_content t = c /\ c <> []))) as X.
  cbv beta in X.
  assert (X1 : (exists p, ts = p ++ ts) /\ special_inv av /\
    (forall c, In c (av_special av) -> In c (av_special av)) /\
    (forall c, In c (av_special av) -> In c (av_special av) \/ exists t, In t ts /\ at_special t = true /\ at_content t = c /\ c <> [])).
  { split; [exists []; reflexivity|]. auto. }
  specialize (X ltac:(intros t r0 a _ _ _ ((p & E) & K); split; [exists (p ++ [t]); rewrite <- app_assoc; exact E|exact K])).
  assert (X2 : forall (t : added_token) (ts0 : list added_token) (av0 : added_vocab) (next0 : N) (n0 : nat)
      (av'0 : added_vocab) (next' id : N) (normed : option str),
    (forall x, normed = Some x -> exists f, norm = Some f /\ f (at_content t) = Some x) ->
    recorded m normed t av0 next0 av'0 next' id ->
    (exists p, ts = p ++ t :: ts0) /\ special_inv av0 /\
    (forall c, In c (av_special av) -> In c (av_special av0)) /\
    (forall c, In c (av_special av0) -> In c (av_special av) \/ exists t, In t ts /\ at_special t = true /\ at_content t = c /\ c <> []) ->
    (exists p, ts = p ++ ts0) /\ special_inv av'0 /\
    (forall c, In c (av_special av) -> In c (av_special av'0)) /\
    (forall c, In c (av_special av'0) -> In c (av_special av) \/ exists t, In t ts /\ at_special t = true /\ at_content t = c /\ c <> [])).
  { intros t rest a nx k a1 nx1 id normed _ R ((p & E) & A & B & C). split; [exists (p ++ [t]); rewrite <- app_assoc; exact E|].
    split; [eapply recorded_special; eauto|]. split.
    - intros c Hc. apply (rc_special _ _ _ _ _ _ _ _ R). auto.
    - intros c Hc. apply (rc_special _ _ _ _ _ _ _ _ R) in Hc. destruct Hc as [Hc|[HS ->]]; [auto|]. right. exists t.
      split; [rewrite E; apply in_or_app; right; left; reflexivity|]. split; [exact HS|]. split; [reflexivity|].
      apply (rc_nonempty _ _ _ _ _ _ _ _ R). }
  specialize (X X2 ts av next n av' r X1 H).
  destruct r; [destruct X as (? & _ & X)|destruct X as (? & ? & ? & (_ & X) & _)]; exact X.
Qed.

Lemma loop_special_taken m norm : forall ts av next n av' n',
  special_inv av -> add_loop m norm ts av next n = (av', Some n') ->
  forall t, In t ts -> at_special t = true -> at_content t <> [] -> In (at_content t) (av_special av').
Proof.
  induction ts as [|x ts IH]; intros av next n av' n' S H t Ht HS HN; [destruct Ht|].
  apply add_loop_step in H. destruct H as [[IG H]|(IG & normed & av1 & nx1 & id & _ & _ & R & _ & H)].
  - destruct Ht as [->|Ht]; [|eapply IH; eauto]. destruct (loop_special _ _ _ _ _ _ _ _ S H) as (_ & M & _). apply M.
    apply is_ignored_spec in IG. destruct IG as [IG|IG]; [contradiction|]. unfold registered in IG.
    destruct (aget str_eqb (at_content t) (av_map av)); [|discriminate]. eapply S; eauto.
  - pose proof (recorded_special _ _ _ _ _ _ _ _ R S) as S1.
    destruct Ht as [->|Ht]; [|eapply IH; eauto]. destruct (loop_special _ _ _ _ _ _ _ _ S1 H) as (_ & M & _). apply M.
    apply (rc_special _ _ _ _ _ _ _ _ R). auto.
Qed.

Lemma special_history build m NF av offered taken : added_history build m NF av offered taken ->
  special_inv av /\
  (forall c, In c (av_special av) -> exists t, In t offered /\ at_special t = true /\ at_content t = c /\ c <> []) /\
  (forall t, In t taken -> at_special t = true -> at_content t <> [] -> In (at_content t) (av_special av)).
Proof.
  assert (SC : forall a b, same_core a b -> special_inv a -> special_inv b).
  { intros a b (C1 & C2 & C3) S i t. rewrite C2, C3. apply S. }
  intros H. induction H as [|av offered taken norm ts av' n H IH NFH A|av offered taken norm ts av' H IH NFH A|av offered taken norm av' ok H IH NFH A|av offered taken b H IH].
  - repeat split; cbn; try discriminate; intros ? [].
  - destruct IH as (I1 & I2 & I3). apply add_tokens_loop in A. destruct A as (av1 & r1 & A & C & _ & _ & E). rewrite (E n eq_refl) in A.
    destruct (loop_special _ _ _ _ _ _ _ _ I1 A) as (S1 & S2 & S3). split; [eapply SC; eauto|]. destruct C as (_ & _ & C3). rewrite C3. split.
    + intros c Hc. destruct (S3 c Hc) as [X|(t & X1 & X2)].
      * destruct (I2 c X) as (t & Y1 & Y2). exists t. split; [apply in_or_app; auto|exact Y2].
      * exists t. split; [apply in_or_app; auto|exact X2].
    + intros t Ht HS HN. apply in_app_or in Ht. destruct Ht as [Ht|Ht]; [apply S2; auto|]. exact (loop_special_taken _ _ _ _ _ _ _ _ I1 A _ Ht HS HN).
  - destruct IH as (I1 & I2 & I3). apply add_tokens_loop in A. destruct A as (av1 & r1 & A & C & _).
    destruct (loop_special _ _ _ _ _ _ _ _ I1 A) as (S1 & S2 & S3). split; [eapply SC; eauto|]. destruct C as (_ & _ & C3). rewrite C3. split.
    + intros c Hc. destruct (S3 c Hc) as [X|(t & X1 & X2)].
      * destruct (I2 c X) as (t & Y1 & Y2). exists t. split; [apply in_or_app; auto|exact Y2].
      * exists t. split; [apply in_or_app; auto|exact X2].
    + intros t Ht HS HN. apply S2. auto.
  - apply renormalize_core in A. destruct IH as (I1 & I2 & I3). split; [eapply SC; eauto|]. destruct A as (_ & _ & C3). rewrite C3. auto.
  - exact IH.
Qed.

Lemma decode_feeds m av skip ids :
  feeds (tk_id_to_token m av) (fun c => In c (av_special av)) skip ids (decode_tokens m av skip ids).
Proof.
  induction ids as [|i ids IH]; [constructor|]. unfold decode_tokens in *. cbn [flat_map].
  destruct (tk_id_to_token m av i) as [t|] eqn:E.
  - unfold av_is_special. destruct skip; cbn [negb orb app].
    + destruct (str_mem t (av_special av)) eqn:EM; cbn [negb].
      * apply str_mem_In in EM. eapply feeds_skip; eauto.
      * apply feeds_keep; [exact E| |exact IH]. intros _ HI. apply str_mem_In in HI. congruence.
    + apply feeds_keep; [exact E|discriminate|exact IH].
  - apply feeds_unknown; assumption.
Qed.

Lemma feeds_ext name s1 s2 skip ids ts : (forall c, s1 c <-> s2 c) -> feeds name s1 skip ids ts -> feeds name s2 skip ids ts.
Proof.
  intros E H. induction H.
  - constructor.
  - apply feeds_unknown; assumption.
  - apply feeds_keep; [assumption| |assumption]. intros S X. apply E in X. exact (H0 S X).
  - eapply feeds_skip; eauto. apply E. assumption.
Qed.

(** ** Saving and loading *)
Lemma insert_by_id_perm x l : Permutation (x :: l) (insert_by_id x l).
Proof.
  induction l as [|y l IH]; [reflexivity|]. cbn. destruct (fst x <=? fst y)%N; [reflexivity|].
  rewrite <- IH. apply perm_swap.
Qed.

Lemma sort_by_id_perm l : Permutation l (sort_by_id l).
Proof. induction l as [|x l IH]; [constructor|]. cbn. rewrite <- insert_by_id_perm. constructor. exact IH. Qed.

Definition id_lt (x y : N * added_token) : Prop := (fst x < fst y)%N.
Definition id_le (x y : N * added_token) : Prop := (fst x <= fst y)%N.

Lemma insert_by_id_sorted x l : StronglySorted id_le l -> StronglySorted id_le (insert_by_id x l).
Proof.
  induction l as [|y l IH]; intros H; [repeat constructor|]. cbn. inversion H as [|? ? H1 H2]; subst.
  destruct (fst x <=? fst y)%N eqn:E.
  - constructor; [exact H|]. constructor; [unfold id_le; lia|]. eapply Forall_impl; [|exact H2]. unfold id_le. intros; lia.
  - constructor; [apply IH; exact H1|]. apply (Permutation_Forall (insert_by_id_perm x l)). constructor; [unfold id_le; lia|exact H2].
Qed.

Lemma sort_by_id_sorted l : StronglySorted id_le (sort_by_id l).
Proof. induction l as [|x l IH]; [constructor|]. cbn. apply insert_by_id_sorted. exact IH. Qed.

Lemma sorted_split_lt a x b : NoDup (map fst (a ++ x :: b)) -> StronglySorted id_le (a ++ x :: b) ->
  (forall y, In y a -> (fst y < fst x)%N) /\ (forall y, In y b -> (fst x < fst y)%N).
Proof.
  intros D S. induction a as [|z a IH]; cbn [app map] in *.
  - inversion S as [|? ? S1 S2]; subst. inversion D as [|? ? D1 D2]; subst. split; [intros y []|].
    intros y Hy. rewrite Forall_forall in S2. pose proof (S2 y Hy) as L. unfold id_le in L.
    assert (fst x <> fst y) by (intros E; apply D1; rewrite E; apply in_map; exact Hy). lia.
  - inversion S as [|? ? S1 S2]; subst. inversion D as [|? ? D1 D2]; subst. destruct (IH D2 S1) as [A B]. split; [|exact B].
    intros y [<-|Hy]; [|auto]. rewrite Forall_forall in S2.
    assert (HX : In x (a ++ x :: b)) by (apply in_or_app; right; left; reflexivity).
    pose proof (S2 x HX) as L. unfold id_le in L.
    assert (fst z <> fst x) by (intros E; apply D1; rewrite E; apply in_map; exact HX). lia.
Qed.

(** The normalised name that should be cached for a token. *)
Definition special_name (norm : option (str -> option str)) (t : added_token) (n : str) : Prop :=
  at_normalized t = true /\ n <> at_content t /\ exists f, norm = Some f /\ f (at_content t) = Some n.

(** The state while loading: exactly the tokens of [done] are in. *)
Record loading (norm : option (str -> option str)) (done : list (N * added_token)) (av : added_vocab) : Prop := {
  ld_name : forall i n, aget N.eqb i (av_cache av) = Some n <-> exists t, In (i, t) done /\ special_name norm t n;
  ld_encode : av_encode_special av = false;
  ld_map : forall c i, aget str_eqb c (av_map av) = Some i <-> exists t, In (i, t) done /\ at_content t = c;
  ld_map_r : forall i t, aget N.eqb i (av_map_r av) = Some t <-> In (i, t) done;
  ld_special : forall c, In c (av_special av) <-> exists i t, In (i, t) done /\ at_special t = true /\ at_content t = c }.

Lemma load_loop m norm (av : added_vocab) (L : list (N * added_token)) :
  model_ok m -> dense m -> av_inv m av -> Permutation (av_map_r av) L -> StronglySorted id_le L ->
  forall todo done a next n a' n',
    L = done ++ todo -> loading norm done a ->
    (N.of_nat (mv_size m) <= next)%N -> (forall i t, In (i, t) done -> (i < next)%N) ->
    (forall j, (N.of_nat (mv_size m) <= j < next)%N -> exists t, In (j, t) done) ->
    add_loop m norm (map snd todo) a next n = (a', Some n') ->
    loading norm L a' /\ n' = n + length todo.
Proof.
  intros MO D I P S. 
  assert (DL : NoDup (map fst L)).
  { eapply Permutation_NoDup; [apply Permutation_map; exact P|]. apply (ai_keys_r _ _ I). }
  assert (INL : forall i t, In (i, t) L <-> aget N.eqb i (av_map_r av) = Some t).
  { intros i t. split.
    - intros H. apply (In_aget N.eqb N_eqb_eq); [apply (ai_keys_r _ _ I)|]. eapply Permutation_in; [apply Permutation_sym; exact P|exact H].
    - intros H. apply (aget_In N.eqb N_eqb_eq) in H. eapply Permutation_in; eauto. }
  induction todo as [|[i t] todo IH]; intros done a next n a' n' EL LD F1 F2 F3 H.
  - cbn in H. injection H as <- <-. rewrite EL, app_nil_r. split; [exact LD|cbn; lia].
  - cbn [map snd] in H.
    assert (HIT : In (i, t) L) by (rewrite EL; apply in_or_app; right; left; reflexivity).
    pose proof (proj1 (INL _ _) HIT) as GT. destruct (ai_bwd _ _ I _ _ GT) as [GM NE].
    pose proof DL as DL'. pose proof S as S'. rewrite EL in DL', S'. destruct (sorted_split_lt _ _ _ DL' S') as [LT GTT]. cbn [fst] in *.
    assert (NOTIN : aget str_eqb (at_content t) (av_map a) = None).
    { destruct (aget str_eqb (at_content t) (av_map a)) as [j|] eqn:E; [|reflexivity]. exfalso.
      apply (ld_map _ _ _ LD) in E. destruct E as (u & HU & EC).
      assert (HUL : In (j, u) L) by (rewrite EL; apply in_or_app; left; exact HU).
      apply INL in HUL. destruct (ai_bwd _ _ I _ _ HUL) as [GU _]. rewrite EC in GU. assert (i = j) by congruence. subst j.
      specialize (LT _ HU). cbn in LT. lia. }
    assert (NIG : is_ignored t a = false).
    { destruct (is_ignored t a) eqn:E; [|reflexivity]. apply is_ignored_spec in E. destruct E as [E|E]; [contradiction|].
      unfold registered in E. rewrite NOTIN in E. discriminate. }
    apply add_loop_step in H. destruct H as [[IG H]|(IG & normed & a1 & nx1 & id & _ & NB1 & R & NB2 & H)]; [congruence|].
    assert (IDN : id = i /\ (nx1 = next /\ (i < next)%N \/ (i = next /\ nx1 = (next + 1)%N))).
    { destruct (rc_id _ _ _ _ _ _ _ _ R) as [[A ->]|[A [-> ->]]]; unfold av_token_to_id in A; rewrite NOTIN in A.
      - destruct (ai_id _ _ I _ _ GM) as [B|[B _]]; [|congruence]. assert (id = i) by congruence. subst id. split; [reflexivity|].
        left. split; [reflexivity|]. apply D in B. lia.
      - destruct (ai_id _ _ I _ _ GM) as [B|[_ B]]; [congruence|].
        assert (i = next).
        { destruct (N.lt_trichotomy i next) as [X|[X|X]]; [|exact X|].
          - destruct (F3 i ltac:(lia)) as (u & HU). specialize (LT _ HU). cbn in LT. lia.
          - assert (HK : In next (map fst (av_map_r av))).
            { apply (ai_contig _ _ I i); [lia|]. apply (aget_In N.eqb N_eqb_eq) in GT. apply (in_map fst) in GT. exact GT. }
            apply in_map_iff in HK. destruct HK as ([k u] & EK & HK). cbn in EK. subst k.
            assert (HUL : In (next, u) L) by (eapply Permutation_in; eauto). rewrite EL in HUL. apply in_app_or in HUL.
            destruct HUL as [HU|[HU|HU]].
            + apply F2 in HU. lia.
            + injection HU as -> ->. lia.
            + specialize (GTT _ HU). cbn in GTT. lia. }
        subst next. split; [reflexivity|]. right. auto. }
    destruct IDN as [-> NXT].
    assert (LD1 : loading norm (done ++ [(i, t)]) a1).
    { assert (FR : forall u, ~ In (i, u) done) by (intros u HU; specialize (LT _ HU); cbn in LT; lia).
      constructor.
      - intros j x. rewrite (rc_name _ _ _ _ _ _ _ _ R), (ld_name _ _ _ LD). split.
        + intros [(-> & X1 & X2 & X3)|[(u & HU & X) _]].
          * exists t. split; [apply in_or_app; right; left; reflexivity|]. split; [exact X2|]. split; [exact X3|]. apply NB2. exact X1.
          * exists u. split; [apply in_or_app; auto|exact X].
        + intros (u & HU & X). apply in_app_or in HU. destruct HU as [HU|[HU|[]]].
          * right. split; [eauto|]. intros (-> & _). eapply FR; eauto.
          * injection HU as <- <-. left. destruct X as (X1 & X2 & f & X3 & X4). split; [reflexivity|]. split; [rewrite (NB1 X1 f X3); exact X4|]. auto.
      - rewrite (rc_encode _ _ _ _ _ _ _ _ R). apply (ld_encode _ _ _ LD).
      - intros c j. rewrite (registered_map_set _ _ _ _ _ _ _ _ R). destruct (str_eqb c (at_content t)) eqn:E.
        + apply str_eqb_eq in E. subst c. split.
          * intros X. injection X as <-. exists t. split; [apply in_or_app; right; left; reflexivity|reflexivity].
          * intros (u & HU & EC). apply in_app_or in HU. destruct HU as [HU|[HU|[]]]; [|injection HU as <- _; reflexivity].
            exfalso. assert (aget str_eqb (at_content t) (av_map a) = Some j) by (apply (ld_map _ _ _ LD); eauto). congruence.
        + rewrite (ld_map _ _ _ LD). split.
          * intros (u & HU & EC). exists u. split; [apply in_or_app; auto|exact EC].
          * intros (u & HU & EC). apply in_app_or in HU. destruct HU as [HU|[HU|[]]]; [eauto|].
            injection HU as <- <-. subst c. rewrite str_eqb_refl in E. discriminate.
      - intros j u. rewrite (rc_map_r _ _ _ _ _ _ _ _ R), (aget_aset N.eqb N_eqb_eq). destruct (N.eqb j i) eqn:E.
        + apply N.eqb_eq in E. subst j. split.
          * intros X. injection X as <-. apply in_or_app; right; left; reflexivity.
          * intros HU. apply in_app_or in HU. destruct HU as [HU|[HU|[]]]; [exfalso; eapply FR; eauto|]. injection HU as <-. reflexivity.
        + rewrite (ld_map_r _ _ _ LD). split; [intros HU; apply in_or_app; auto|].
          intros HU. apply in_app_or in HU. destruct HU as [HU|[HU|[]]]; [exact HU|]. injection HU as -> ->. rewrite N.eqb_refl in E. discriminate.
      - intros c. rewrite (rc_special _ _ _ _ _ _ _ _ R), (ld_special _ _ _ LD). split.
        + intros [(j & u & HU & X)|[X ->]]; [exists j, u|exists i, t]; (split; [apply in_or_app; cbn; auto|auto]).
        + intros (j & u & HU & X1 & X2). apply in_app_or in HU. destruct HU as [HU|[HU|[]]]; [left; eauto|]. injection HU as -> ->. auto. }
    specialize (IH (done ++ [(i, t)]) a1 nx1 (n + 1) a' n').
    destruct IH as [IH1 IH2].
    + rewrite EL, <- app_assoc. reflexivity.
    + exact LD1.
    + lia.
    + intros j u HU. apply in_app_or in HU. destruct HU as [HU|[HU|[]]]; [apply F2 in HU; lia|]. injection HU as <- <-. lia.
    + intros j Hj. destruct (N.eq_dec j i) as [->|NEQ]; [exists t; apply in_or_app; right; left; reflexivity|].
      destruct (F3 j ltac:(lia)) as (u & HU). exists u. apply in_or_app; auto.
    + exact H.
    + split; [exact IH1|]. cbn [length]. lia.
Qed.

Lemma load_save build m norm av av' n : model_ok m -> dense m -> av_inv m av ->
  av_load build m norm (av_save av) = (av', Some n) ->
  loading norm (av_map_r av) av' /\ n = length (av_map_r av).
Proof.
  intros MO D I H. unfold av_load in H. apply add_tokens_loop in H. destruct H as (av1 & r1 & H & (C1 & C2 & C3) & C4 & C5 & E).
  rewrite (E n eq_refl) in H. unfold av_save in H. pose proof (sort_by_id_perm (av_map_r av)) as P.
  destruct (load_loop m norm av (sort_by_id (av_map_r av)) MO D I P (sort_by_id_sorted _) (sort_by_id (av_map_r av)) [] av_new
              (first_next_id av_new m) 0 av1 n) as [A B].
  - reflexivity.
  - constructor; cbn.
    + intros i x. split; [discriminate|]. intros (t & [] & _).
    + reflexivity.
    + intros c i. split; [discriminate|]. intros (t & [] & _).
    + intros i t. split; [discriminate|intros []].
    + intros c. split; [intros []|]. intros (i & t & [] & _).
  - cbn. lia.
  - intros i t [].
  - cbn. intros; lia.
  - exact H.
  - split; [|rewrite B; cbn; symmetry; apply Permutation_length; exact P].
    assert (PI : forall x, In x (sort_by_id (av_map_r av)) <-> In x (av_map_r av)).
    { intros x. split; intros HX; [eapply Permutation_in; [apply Permutation_sym; exact P|exact HX]|eapply Permutation_in; eauto]. }
    constructor.
    + intros i x. rewrite C4, (ld_name _ _ _ A). split; intros (t & X & Y); exists t; (split; [apply PI; exact X|exact Y]).
    + rewrite C5. apply (ld_encode _ _ _ A).
    + intros c i. rewrite C1, (ld_map _ _ _ A). split; intros (t & X & Y); exists t; (split; [apply PI; exact X|exact Y]).
    + intros i t. rewrite C2, (ld_map_r _ _ _ A). apply PI.
    + intros c. rewrite C3, (ld_special _ _ _ A). split; intros (i & t & X & Y); exists i, t; (split; [apply PI; exact X|exact Y]).
Qed.

(** Additions do not fail when the normalizer and the builder do not. *)
Lemma add_loop_total m norm : (forall f c, norm = Some f -> f c <> None) ->
  forall ts av next n, exists av' n', add_loop m norm ts av next n = (av', Some n').
Proof.
  intros T. induction ts as [|t ts IH]; intros av next n; [cbn; eauto|]. cbn [add_loop].
  destruct norm as [f|].
  - destruct (is_ignored t av || negb (at_normalized t)).
    + destruct (add_one m None t av next) as [[a b] r]. apply IH.
    + destruct (f (at_content t)) eqn:E; [|exfalso; eapply T; eauto].
      destruct (add_one m (Some l) t av next) as [[a b] r]. apply IH.
  - destruct (add_one m None t av next) as [[a b] r]. apply IH.
Qed.

Lemma add_tokens_total build m norm ts av : (forall f c, norm = Some f -> f c <> None) -> (forall l, build l = true) ->
  exists av' n, add_tokens build m norm ts av = (av', Some n).
Proof.
  intros T B. unfold add_tokens. destruct (add_loop_total m norm T ts av (first_next_id av m) 0) as (av' & n & ->).
  unfold av_refresh. rewrite !B, !orb_true_r. eauto.
Qed.

(** After [refresh_normalized_tokens], the cached names are those of the normalizer. *)
Lemma recache_names norm l : NoDup (map fst l) -> forall c c', recache norm l c = (c', true) ->
  forall i n, aget N.eqb i c' = Some n <->
    (exists t, In (i, t) l /\ special_name norm t n) \/
    (aget N.eqb i c = Some n /\ ~ exists t x, In (i, t) l /\ special_name norm t x).
Proof.
  induction l as [|[j t] l IH]; intros D c c' H i n; cbn [recache] in H.
  - injection H as <-. split; [intros X; right; split; [exact X|intros (t & x & [] & _)]|intros [(t & [] & _)|[X _]]; exact X].
  - cbn [map fst] in D. inversion D as [|? ? D1 D2]; subst.
    assert (NJ : forall u, ~ In (j, u) l) by (intros u HU; apply D1; apply (in_map fst) in HU; exact HU).
    assert (PL : (forall x, ~ special_name norm t x) -> recache norm l c = (c', true) ->
       (aget N.eqb i c' = Some n <-> (exists u, In (i, u) ((j, t) :: l) /\ special_name norm u n) \/
        (aget N.eqb i c = Some n /\ ~ exists u x, In (i, u) ((j, t) :: l) /\ special_name norm u x))).
    { intros NS HR. rewrite (IH D2 _ _ HR). split.
      - intros [(u & X & Y)|[X Y]]; [left; exists u; split; [right; exact X|exact Y]|].
        right. split; [exact X|]. intros (u & x & [Z|Z] & W); [injection Z as <- <-; eapply NS; eauto|apply Y; eauto].
      - intros [(u & [Z|Z] & Y)|[X Y]]; [injection Z as <- <-; exfalso; eapply NS; eauto|left; eauto|].
        right. split; [exact X|]. intros (u & x & Z & W). apply Y. exists u, x. split; [right; exact Z|exact W]. }
    destruct norm as [f|].
    2:{ apply PL; [|exact H]. intros x (_ & _ & f & X & _). discriminate. }
    destruct (at_normalized t) eqn:EN.
    2:{ apply PL; [|exact H]. intros x (X & _). congruence. }
    destruct (f (at_content t)) as [x|] eqn:EF; [|discriminate].
    destruct (str_eqb x (at_content t)) eqn:ES.
    { apply str_eqb_eq in ES. apply PL; [|exact H]. intros y (_ & X & g & Y & Z). injection Y as <-. congruence. }
    assert (NE : x <> at_content t) by (intros Y; apply str_eqb_eq in Y; congruence).
    assert (SN : special_name (Some f) t x) by (split; [exact EN|split; [exact NE|exists f; auto]]).
    rewrite (IH D2 _ _ H), (aget_aset N.eqb N_eqb_eq). destruct (N.eqb i j) eqn:E.
    + apply N.eqb_eq in E. subst i. split.
      * intros [(u & X & _)|[X _]]; [exfalso; eapply NJ; eauto|]. injection X as <-. left. exists t. split; [left; reflexivity|exact SN].
      * intros [(u & [Z|Z] & Y)|[_ Y]].
        -- injection Z as <-. right. destruct Y as (_ & _ & g & Y1 & Y2). injection Y1 as <-. split; [congruence|]. intros (u & y & X & _). eapply NJ; eauto.
        -- exfalso. eapply NJ; eauto.
        -- exfalso. apply Y. exists t, x. split; [left; reflexivity|exact SN].
    + apply N.eqb_neq in E. split.
      * intros [(u & X & Y)|[X Y]]; [left; exists u; split; [right; exact X|exact Y]|]. right. split; [exact X|].
        intros (u & y & [Z|Z] & W); [injection Z as -> ->; congruence|apply Y; eauto].
      * intros [(u & [Z|Z] & Y)|[X Y]]; [injection Z as -> ->; congruence|left; eauto|]. right. split; [exact X|].
        intros (u & y & Z & W). apply Y. exists u, y. split; [right; exact Z|exact W].
Qed.

Lemma renormalize_names build norm av av' : NoDup (map fst (av_map_r av)) ->
  av_refresh_normalized build norm av = (av', true) ->
  forall i n, aget N.eqb i (av_cache av') = Some n <-> exists t, aget N.eqb i (av_map_r av') = Some t /\ special_name norm t n.
Proof.
  intros D H i n. pose proof (renormalize_core _ _ _ _ _ H) as (_ & C2 & _). rewrite C2.
  unfold av_refresh_normalized in H. destruct (recache norm (av_map_r av) []) as [c [|]] eqn:EC; [|discriminate].
  apply av_refresh_core in H. destruct H as (_ & C4 & _). cbn [av_cache] in C4. rewrite C4, (recache_names _ _ D _ _ EC). split.
  - intros [(t & X & Y)|[X _]]; [|discriminate]. exists t. split; [apply (In_aget N.eqb N_eqb_eq); assumption|exact Y].
  - intros (t & X & Y). left. exists t. split; [apply (aget_In N.eqb N_eqb_eq); exact X|exact Y].
Qed.

Lemma adding_known cur ts n cur' : adding cur ts n cur' ->
  (forall c, cur c <> None -> cur' c <> None) /\
  (forall t, In t ts -> at_content t <> [] -> cur' (at_content t) <> None).
Proof.
  intros H. induction H as [cur|cur x ts n cur' N H [IH1 IH2]|cur x ts n cur' N H [IH1 IH2]].
  - split; [auto|intros t []].
  - split.
    + intros c Hc. apply IH1. unfold upd. destruct (str_eqb c (at_content x)); [discriminate|exact Hc].
    + intros t [->|Ht] NE; [|auto]. apply IH1. unfold upd. rewrite str_eqb_refl. discriminate.
  - split; [exact IH1|]. intros t [->|Ht] NE; [|auto]. apply IH1. intros E. apply N. split; [exact NE|]. rewrite E. discriminate.
Qed.

Lemma taken_known build m NF av offered taken : model_ok m -> dense m -> added_history build m NF av offered taken ->
  forall t, In t taken -> at_content t <> [] -> exists i, aget str_eqb (at_content t) (av_map av) = Some i.
Proof.
  intros MO D H.
  assert (MONO : forall norm ts a b r, add_tokens build m norm ts a = (b, r) -> forall c i, aget str_eqb c (av_map a) = Some i -> exists j, aget str_eqb c (av_map b) = Some j).
  { intros norm ts a b r E c i Hc. apply add_tokens_loop in E. destruct E as (a1 & r1 & E & (C1 & _) & _). rewrite C1.
    pose proof (add_loop_ind m norm (fun _ x _ _ => exists j, aget str_eqb c (av_map x) = Some j)) as X. cbv beta in X.
    assert (ST : forall (t : added_token) (ts0 : list added_token) (av0 : added_vocab) (next0 : N) (n0 : nat)
      (av'0 : added_vocab) (next' id : N) (normed : option str),
      (forall x, normed = Some x -> exists f, norm = Some f /\ f (at_content t) = Some x) ->
      recorded m normed t av0 next0 av'0 next' id -> (exists j, aget str_eqb c (av_map av0) = Some j) -> exists j, aget str_eqb c (av_map av'0) = Some j).
    { intros t _ x nx _ x1 nx1 id normed _ R (j & Hj). rewrite (registered_map_set _ _ _ _ _ _ _ _ R). destruct (str_eqb c (at_content t)); eauto. }
    specialize (X ltac:(auto) ST ts a (first_next_id a m) 0 a1 r1 (ex_intro _ i Hc) E).
    destruct r1; [destruct X as (? & X)|destruct X as (? & ? & ? & X & _)]; exact X. }
  induction H as [|av offered taken norm ts av' n H IH NFH A|av offered taken norm ts av' H IH NFH A|av offered taken norm av' ok H IH NFH A|av offered taken b H IH]; intros t Ht NE.
  - destruct Ht.
  - apply in_app_or in Ht. destruct Ht as [Ht|Ht].
    + destruct (IH t Ht NE) as (i & Hi). eapply MONO; eauto.
    + destruct (add_tokens_adding _ _ _ _ _ _ _ MO D (history_inv _ _ _ _ _ _ MO D H) A) as (cur' & AD & R).
      apply adding_known in AD. destruct AD as [_ AD]. specialize (AD t Ht NE). rewrite <- R in AD. unfold registered in AD.
      destruct (aget str_eqb (at_content t) (av_map av')); [eauto|congruence].
  - destruct (IH t Ht NE) as (i & Hi). eapply MONO; eauto.
  - apply renormalize_core in A. destruct A as (C1 & _). rewrite C1. auto.
  - apply (IH t Ht NE).
Qed.
