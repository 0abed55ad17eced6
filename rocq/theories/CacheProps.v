(** C35: the caches are invisible. *)
From Verif Require Import Base StrBytes ListFacts AMap EncodingModel BpeWordModel BpeWordSpec BpeWordProofs BpeModel BpeSpec BpeProofs BpeProps CacheModel CacheSpec.

Lemma Nateqb_eq a b : Nat.eqb a b = true <-> a = b.
Proof. apply Nat.eqb_eq. Qed.

Lemma drop_key_in {A} t (l : list (nat * A)) x a : In (x, a) (drop_key t l) <-> In (x, a) l /\ x <> t.
Proof.
  induction l as [|[t' b] l IH]; cbn; [tauto|]. destruct (Nat.eqb_spec t t') as [<-|N]; cbn; rewrite IH.
  - split; [tauto|]. intros [[E|H] N]; [injection E as -> ->; congruence|auto].
  - split; [intros [E|[H X]]; [injection E as -> ->; auto|auto]|tauto].
Qed.

Lemma calls_in {A} t (l : list (nat * A)) a : aget Nat.eqb t l = Some a -> In (t, a) l.
Proof. apply (aget_In Nat.eqb Nateqb_eq). Qed.

Lemma plain_decorate m d i first last s : decorate (with_plain m d i) first last s = decorate m first last s.
Proof. reflexivity. Qed.

Lemma plain_word_loop m d i cs : forall first w unk, word_loop (with_plain m d i) first cs w unk = word_loop m first cs w unk.
Proof.
  induction cs as [|c cs IH]; intros first w unk; cbn [word_loop]; [reflexivity|].
  change (decorate (with_plain m d i) first (is_nil cs) [c]) with (decorate m first (is_nil cs) [c]).
  change (b_id (with_plain m d i)) with (b_id m). change (b_fallback (with_plain m d i)) with (b_fallback m).
  change (b_unk (with_plain m d i)) with (b_unk m). change (b_fuse (with_plain m d i)) with (b_fuse m). change (unk_id (with_plain m d i)) with (unk_id m).
  destruct (b_id m _); [apply IH|]. destruct (if b_fallback m then _ else None); [apply IH|]. destruct (b_unk m); [|apply IH].
  destruct unk as [[ui ul]|].
  - destruct (b_fuse m); [apply IH|]. destruct (unk_id m l); cbn [bind]; auto.
  - destruct (unk_id m l); cbn [bind]; auto.
Qed.

Lemma plain_merge_word pop m d i draws s : merge_word pop (with_plain m d i) draws s = merge_word pop m draws s.
Proof. unfold merge_word. rewrite plain_word_loop. reflexivity. Qed.

Section local.
  Context (pop : list merge -> option (merge * list merge)).

  Definition valid (m : bpe) (l : list (str * word)) : Prop :=
    forall s w, aget str_eqb s l = Some w -> merge_word pop m no_draw s = Ok w.

  Record call_ok (st : world) (t : nat) (f : call) : Prop := {
    k_id : (f_id f < g_next st)%N;
    k_inst : exists i, nth_error (g_insts st) (f_inst f) = Some i /\ plain_dropout (i_model i) = true /\
      (if b_ignore_merges (i_model i) then b_id (i_model i) (f_seq f) else None) = None /\ valid (i_model i) (local_map st t (f_id f));
    k_seq : f_seq f <> [];
    k_owner : forall k i c, nth_error (g_insts st) k = Some i -> i_cache i = Some (f_id f, c) -> k = f_inst f }.

  Record inv (dirty : list nat) (st : world) : Prop := {
    v_ids : forall k i id c, nth_error (g_insts st) k = Some i -> i_cache i = Some (id, c) -> (id < g_next st)%N;
    v_uniq : forall k i k' i' id c c', nth_error (g_insts st) k = Some i -> nth_error (g_insts st) k' = Some i' ->
      i_cache i = Some (id, c) -> i_cache i' = Some (id, c') -> k = k';
    v_local : forall t id, local_map st t id <> [] -> (id < g_next st)%N;
    v_calls : forall t f, In (t, f) (g_calls st) -> call_ok st t f;
    v_clean : forall k i id c t, nth_error (g_insts st) k = Some i -> i_cache i = Some (id, c) -> ~ In k dirty -> valid (i_model i) (local_map st t id) }.

  Lemma valid_nil m : valid m [].
  Proof. intros s w H. discriminate. Qed.

  Lemma fresh_local dirty st t : inv dirty st -> local_map st t (g_next st) = [].
  Proof. intros H. destruct (local_map st t (g_next st)) eqn:E; [reflexivity|]. assert (local_map st t (g_next st) <> []) as X by (rewrite E; discriminate). apply (v_local _ _ H) in X. lia. Qed.

  Lemma snoc_nth {A} (l : list A) x k y : nth_error (l ++ [x]) k = Some y <-> nth_error l k = Some y \/ (k = length l /\ x = y).
  Proof.
    destruct (Nat.lt_ge_cases k (length l)) as [L|L].
    - rewrite nth_error_app1 by exact L. split; [auto|]. intros [H|[-> _]]; [exact H|lia].
    - rewrite nth_error_app2 by exact L. split.
      + intros H. right. destruct (k - length l) as [|n] eqn:E; cbn in H; [injection H as ->; split; [lia|reflexivity]|destruct n; discriminate].
      + intros [H|[-> ->]]; [assert (k < length l) by (apply nth_error_Some; congruence); lia|]. rewrite Nat.sub_diag. reflexivity.
  Qed.

  Lemma upd_nth {A} (l : list A) k x j y : nth_error (upd l k (fun _ => x)) j = Some y -> (j = k /\ y = x) \/ (j <> k /\ nth_error l j = Some y).
  Proof.
    rewrite nth_error_upd. destruct (Nat.eqb_spec k j) as [->|N].
    - destruct (nth_error l j); cbn; [|discriminate]. intros H. injection H as <-. auto.
    - intros H. right. auto.
  Qed.

  Lemma upd_here {A} (l : list A) k x y : nth_error l k = Some y -> nth_error (upd l k (fun _ => x)) k = Some x.
  Proof. intros H. rewrite nth_error_upd, Nat.eqb_refl, H. reflexivity. Qed.

  Lemma upd_there {A} (l : list A) k x j : j <> k -> nth_error (upd l k (fun _ => x)) j = nth_error l j.
  Proof. intros N. rewrite nth_error_upd. destruct (Nat.eqb_spec k j); [congruence|reflexivity]. Qed.

  Lemma local_mk n i l c n' i' c' t id : local_map (mkWorld n i l c) t id = local_map (mkWorld n' i' l c') t id.
  Proof. reflexivity. Qed.

  Lemma set_local_get st t id l t' id' n i c : local_map (mkWorld n i (set_local st t id l) c) t' id' =
    if (t' =? t) && N.eqb id' id then l else local_map st t' id'.
  Proof.
    unfold local_map, set_local. cbn [g_local]. rewrite (aget_aset Nat.eqb Nateqb_eq). destruct (Nat.eqb_spec t' t) as [->|N]; cbn [andb]; [|reflexivity].
    rewrite (aget_aset N.eqb Neqb_eq). destruct (N.eqb_spec id' id) as [->|N]; [reflexivity|]. destruct (aget Nat.eqb t (g_local st)); reflexivity.
  Qed.

  Lemma no_call_spec st k : no_call_on st k = true -> forall t f, In (t, f) (g_calls st) -> f_inst f <> k.
  Proof. unfold no_call_on. rewrite forallb_forall. intros H t f HI. specialize (H _ HI). cbn in H. apply negb_true_iff, Nat.eqb_neq in H. exact H. Qed.

  Definition after (dirty : list nat) (o : op) : list nat :=
    match o with OSet k _ => k :: dirty | OClear k => remove Nat.eq_dec k dirty | _ => dirty end.

  Lemma inv_new dirty st m c : inv dirty st -> forall n, (match c with Some (id, _) => id = g_next st /\ n = (g_next st + 1)%N | None => n = g_next st end) ->
    (forall k, In k dirty -> k < length (g_insts st)) ->
    inv dirty (mkWorld n (g_insts st ++ [mkInst m c]) (g_local st) (g_calls st)).
  Proof.
    intros H n HN HD.
    assert (LN : (g_next st <= n)%N) by (destruct c as [[id ?]|]; lia).
    constructor.
    - intros k i id cp HK HC. cbn in HK. cbn [g_next]. apply snoc_nth in HK. destruct HK as [HK|[_ <-]].
      + pose proof (v_ids _ _ H _ _ _ _ HK HC). lia.
      + cbn in HC. subst c. lia.
    - intros k i k' i' id cp cp' HK HK' HC HC'. cbn in HK, HK'. apply snoc_nth in HK, HK'.
      destruct HK as [HK|[-> <-]], HK' as [HK'|[-> <-]].
      + eapply (v_uniq _ _ H); eauto.
      + cbn in HC'. subst c. pose proof (v_ids _ _ H _ _ _ _ HK HC). lia.
      + cbn in HC. subst c. pose proof (v_ids _ _ H _ _ _ _ HK' HC'). lia.
      + reflexivity.
    - intros t id HL. cbn [g_next]. pose proof (v_local _ _ H t id HL). lia.
    - intros t f HI. destruct (v_calls _ _ H t f HI) as [A (i & B1 & B2 & B3 & B4) C D]. constructor; cbn [g_next g_insts].
      + lia.
      + exists i. split; [apply snoc_nth; auto|]. auto.
      + exact C.
      + intros k i' cp HK HC. apply snoc_nth in HK. destruct HK as [HK|[_ <-]]; [eapply D; eauto|]. cbn in HC. subst c. lia.
    - intros k i id cp t HK HC ND. cbn in HK. apply snoc_nth in HK. destruct HK as [HK|[_ <-]].
      + apply (v_clean _ _ H k i id cp t HK HC ND).
      + cbn in HC. subst c. destruct HN as [-> _]. change (local_map (mkWorld _ _ (g_local st) (g_calls st)) t (g_next st)) with (local_map st t (g_next st)). rewrite (fresh_local _ _ _ H). apply valid_nil.
  Qed.

  (** Replacing one model by another with the same words, or declaring it dirty. *)
  Lemma inv_replace dirty dirty' st k i i' : inv dirty st -> nth_error (g_insts st) k = Some i ->
    option_map fst (i_cache i') = option_map fst (i_cache i) ->
    (forall t f, In (t, f) (g_calls st) -> f_inst f <> k) ->
    (forall j, In j dirty -> In j dirty') ->
    (~ In k dirty' -> forall l, valid (i_model i) l -> valid (i_model i') l) ->
    inv dirty' (set_inst st k i').
  Proof.
    intros H HK EC NC DD EV.
    assert (CC : forall id c, i_cache i' = Some (id, c) -> exists c', i_cache i = Some (id, c')).
    { intros id c E. rewrite E in EC. cbn in EC. destruct (i_cache i) as [[id' c']|]; [|discriminate]. cbn in EC. injection EC as ->. eauto. }
    unfold set_inst. constructor; cbn [g_next g_insts g_calls].
    - intros j x id c HJ HC. apply upd_nth in HJ. destruct HJ as [[-> ->]|[N HJ]]; [|eapply (v_ids _ _ H); eauto].
      destruct (CC _ _ HC) as (c' & HC'). eapply (v_ids _ _ H); eauto.
    - intros j x j' x' id c c' HJ HJ' HC HC'. apply upd_nth in HJ, HJ'.
      destruct HJ as [[-> ->]|[N HJ]], HJ' as [[-> ->]|[N' HJ']]; [reflexivity| | |eapply (v_uniq _ _ H); eauto].
      + destruct (CC _ _ HC) as (c2 & HC2). eapply (v_uniq _ _ H); eauto.
      + destruct (CC _ _ HC') as (c2 & HC2). eapply (v_uniq _ _ H); eauto.
    - apply (v_local _ _ H).
    - intros t f HI. pose proof (NC _ _ HI) as NF. destruct (v_calls _ _ H t f HI) as [A (y & B1 & B2 & B3 & B4) C D]. constructor; cbn [g_next g_insts].
      + exact A.
      + exists y. split; [rewrite upd_there by exact NF; exact B1|]. auto.
      + exact C.
      + intros j x c HJ HC. apply upd_nth in HJ. destruct HJ as [[-> ->]|[N HJ]]; [|eapply D; eauto]. destruct (CC _ _ HC) as (c' & HC'). eapply D; eauto.
    - intros j x id c t HJ HC ND. apply upd_nth in HJ. destruct HJ as [[-> ->]|[N HJ]].
      + destruct (CC _ _ HC) as (c' & HC'). apply EV; [exact ND|]. apply (v_clean _ _ H k i id c' t HK HC'). intros X. apply ND, DD, X.
      + apply (v_clean _ _ H j x id c t HJ HC). intros X. apply ND, DD, X.
  Qed.

  Lemma bounded_after dirty st o st' out : (forall k, In k dirty -> k < length (g_insts st)) -> step pop st o = Some (st', out) ->
    forall k, In k (after dirty o) -> k < length (g_insts st').
  Proof.
    intros HD H. assert (L : length (g_insts st) <= length (g_insts st')).
    { destruct o; cbn [step] in H;
      repeat match goal with
             | H : context [match ?x with _ => _ end] |- _ => destruct x; try discriminate
             end; injection H as <- <-; cbn [g_insts set_inst]; rewrite ?app_length, ?upd_length; lia. }
    assert (X : forall k, In k (after dirty o) -> In k dirty \/ exists m, o = OSet k m).
    { intros k HI. destruct o; cbn [after] in HI; auto.
      - left. apply in_remove in HI. tauto.
      - destruct HI as [<-|HI]; eauto. }
    intros k HI. destruct (X _ HI) as [Y|(m & ->)]; [specialize (HD _ Y); lia|].
    cbn [step] in H. destruct (no_call_on st k); [|discriminate]. destruct (nth_error (g_insts st) k) as [[m0 c0]|] eqn:E; [|discriminate].
    assert (k < length (g_insts st)) by (apply nth_error_Some; congruence). lia.
  Qed.

  Lemma step_inv dirty st o st' out : inv dirty st -> (forall k, In k dirty -> k < length (g_insts st)) ->
    (forall t k s d, o = OStart t k s d -> ~ In k dirty) ->
    step pop st o = Some (st', out) ->
    inv (after dirty o) st' /\
    (forall x, out = Some x -> exists i, nth_error (g_insts st) (o_inst x) = Some i /\ o_tokens x = bpe_tokenize pop (i_model i) (o_draws x) (o_seq x)).
  Proof.
    intros H HD HS E. destruct o as [m cap|k|k|k cap|k d ig|k m'|t k s draws|t]; cbn [step after] in *.
    - destruct cap as [|cap]; injection E as <- <-; (split; [|discriminate]); apply inv_new; auto.
    - destruct (nth_error (g_insts st) k) as [[m [[id cap]|]]|]; [| |discriminate]; injection E as <- <-; (split; [|discriminate]); apply inv_new; auto.
    - destruct (nth_error (g_insts st) k) as [[m [[id cap]|]]|] eqn:EK; [| |discriminate]; injection E as <- <-; (split; [|discriminate]).
      + unfold set_inst. constructor; cbn [g_next g_insts g_calls].
        * intros j x id' c HJ HC. apply upd_nth in HJ. destruct HJ as [[-> ->]|[N HJ]]; [cbn in HC; injection HC as <- _; lia|]. pose proof (v_ids _ _ H _ _ _ _ HJ HC). lia.
        * intros j x j' x' id' c c' HJ HJ' HC HC'. apply upd_nth in HJ, HJ'.
          destruct HJ as [[-> ->]|[N HJ]], HJ' as [[-> ->]|[N' HJ']]; [reflexivity| | |eapply (v_uniq _ _ H); eauto].
          -- cbn in HC. injection HC as <- _. pose proof (v_ids _ _ H _ _ _ _ HJ' HC'). lia.
          -- cbn in HC'. injection HC' as <- _. pose proof (v_ids _ _ H _ _ _ _ HJ HC). lia.
        * intros t id' HL. pose proof (v_local _ _ H t id' HL). lia.
        * intros t f HI. destruct (v_calls _ _ H t f HI) as [A (y & B1 & B2 & B3 & B4) C D]. constructor; cbn [g_next g_insts].
          -- lia.
          -- destruct (Nat.eq_dec (f_inst f) k) as [EF|NF].
             ++ rewrite EF in B1. rewrite EK in B1. injection B1 as <-. exists (mkInst m (Some (g_next st, cap))). rewrite EF. split; [eapply upd_here; exact EK|]. auto.
             ++ exists y. rewrite upd_there by exact NF. auto.
          -- exact C.
          -- intros j x c HJ HC. apply upd_nth in HJ. destruct HJ as [[-> ->]|[N HJ]]; [cbn in HC; injection HC; intros; lia|]. eapply D; eauto.
        * intros j x id' c t HJ HC ND. apply upd_nth in HJ. destruct HJ as [[-> ->]|[N HJ]].
          -- cbn in HC. injection HC as <- _. change (local_map _ t (g_next st)) with (local_map st t (g_next st)). rewrite (fresh_local _ _ _ H). apply valid_nil.
          -- apply (v_clean _ _ H j x id' c t HJ HC). intros X. apply ND. apply in_in_remove; [congruence|exact X].
      + destruct H as [h1 h2 h3 h4 h5]. constructor; auto. intros j x id' c t HJ HC ND. destruct (Nat.eq_dec j k) as [->|NJ]; [rewrite EK in HJ; injection HJ as <-; discriminate|].
        apply (h5 j x id' c t HJ HC). intros X. apply ND. apply in_in_remove; [exact NJ|exact X].
    - destruct (no_call_on st k) eqn:NC; [|discriminate]. destruct (nth_error (g_insts st) k) as [[m [[id c0]|]]|] eqn:EK; [| |discriminate]; injection E as <- <-; (split; [|discriminate]).
      + eapply inv_replace; [exact H|exact EK|reflexivity|apply no_call_spec; exact NC|auto|auto].
      + exact H.
    - destruct (no_call_on st k) eqn:NC; [|discriminate]. destruct (nth_error (g_insts st) k) as [[m c0]|] eqn:EK; [|discriminate]; injection E as <- <-; (split; [|discriminate]).
      eapply inv_replace; [exact H|exact EK|reflexivity|apply no_call_spec; exact NC|auto|]. intros _ l V s w X. cbn [i_model] in *. rewrite plain_merge_word. apply V. exact X.
    - destruct (no_call_on st k) eqn:NC; [|discriminate]. destruct (nth_error (g_insts st) k) as [[m c0]|] eqn:EK; [|discriminate]; injection E as <- <-; (split; [|discriminate]).
      eapply inv_replace; [exact H|exact EK|reflexivity|apply no_call_spec; exact NC|cbn; auto|]. intros X. exfalso. apply X. left. reflexivity.
    - specialize (HS _ _ _ _ eq_refl). destruct (aget Nat.eqb t (g_calls st)) eqn:EC; [discriminate|]. destruct (nth_error (g_insts st) k) as [[m c0]|] eqn:EK; [|discriminate].
      unfold bpe_tokenize, tokenize_plain. destruct (is_nil s) eqn:NS.
      { injection E as <- <-. split; [exact H|]. intros x EX. injection EX as <-. exists (mkInst m c0). cbn. rewrite NS. auto. }
      destruct (plain_dropout m) eqn:PD.
      2:{ injection E as <- <-. split; [exact H|]. intros x EX. injection EX as <-. exists (mkInst m c0). cbn. rewrite NS. split; [exact EK|]. unfold plain_dropout in PD. destruct (b_dropout m); try discriminate; reflexivity. }
      destruct (if b_ignore_merges m then b_id m s else None) as [i|] eqn:EI.
      { injection E as <- <-. split; [exact H|]. intros x EX. injection EX as <-. exists (mkInst m c0). cbn. rewrite NS, EI. split; [exact EK|]. unfold plain_dropout in PD. destruct (b_dropout m); try discriminate; reflexivity. }
      destruct c0 as [[id cap]|].
      2:{ injection E as <- <-. split; [exact H|]. intros x EX. injection EX as <-. eexists. cbn. split; [exact EK|]. cbn. rewrite NS, EI. unfold plain_dropout in PD. destruct (b_dropout m); try discriminate; reflexivity. }
      injection E as <- <-. split; [|discriminate]. destruct H as [h1 h2 h3 h4 h5]. constructor; auto.
      intros t' f HI. cbn [g_calls] in HI. destruct HI as [X|HI]; [|destruct (h4 _ _ HI); constructor; auto].
      injection X as <- <-. constructor; cbn [f_id f_inst f_seq g_next g_insts].
      + eapply h1; [exact EK|reflexivity].
      + exists (mkInst m (Some (id, cap))). cbn [i_model]. split; [exact EK|]. split; [exact PD|]. split; [exact EI|]. apply (h5 k _ id cap t EK eq_refl HS).
      + intros ->. discriminate.
      + intros j y c HJ HC. eapply h2; [exact HJ|exact EK|exact HC|reflexivity].
    - destruct (aget Nat.eqb t (g_calls st)) as [f|] eqn:EC; [|discriminate]. apply calls_in in EC. destruct (v_calls _ _ H _ _ EC) as [A (y & B1 & B2 & B3 & B4) C D]. rewrite B1 in E. destruct y as [m c0]. cbn [i_model] in *.
      assert (TK : forall r, r = (let! w := merge_word pop m no_draw (f_seq f) in word_to_tokens m w) -> forall x, Some (mkOut (f_inst f) (f_seq f) (f_draws f) r) = Some x ->
        exists i, nth_error (g_insts st) (o_inst x) = Some i /\ o_tokens x = bpe_tokenize pop (i_model i) (o_draws x) (o_seq x)).
      { intros r -> x EX. injection EX as <-. exists (mkInst m c0). cbn [o_inst o_tokens o_draws o_seq i_model]. split; [exact B1|]. unfold bpe_tokenize, tokenize_plain.
        replace (is_nil (f_seq f)) with false by (destruct (f_seq f); [congruence|reflexivity]). rewrite B3. unfold plain_dropout in B2. destruct (b_dropout m); try discriminate; reflexivity. }
      assert (NEW : forall l, (forall s w, aget str_eqb s l = Some w -> aget str_eqb s (local_map st t (f_id f)) = Some w \/ merge_word pop m no_draw s = Ok w) ->
        inv dirty (mkWorld (g_next st) (g_insts st) (set_local st t (f_id f) l) (drop_key t (g_calls st)))).
      { intros l HL. assert (VL : valid m l) by (intros s w X; destruct (HL _ _ X) as [Y|Y]; [apply B4; exact Y|exact Y]).
        constructor; cbn [g_next g_insts g_calls].
        - apply (v_ids _ _ H).
        - apply (v_uniq _ _ H).
        - intros t' id'. rewrite set_local_get. destruct (N.eqb_spec id' (f_id f)) as [->|N]; [intros _; exact A|]. rewrite andb_false_r. apply (v_local _ _ H).
        - intros t' f' HI. apply drop_key_in in HI. destruct HI as [HI NT]. destruct (v_calls _ _ H _ _ HI) as [A' (y' & B1' & B2' & B3' & B4') C' D']. constructor; auto.
          exists y'. rewrite set_local_get. replace (t' =? t) with false by (symmetry; apply Nat.eqb_neq; exact NT). cbn [andb]. auto.
        - intros j x id' c t' HJ HC ND. rewrite set_local_get. destruct ((t' =? t) && N.eqb id' (f_id f)) eqn:EB; [|apply (v_clean _ _ H j x id' c t' HJ HC ND)].
          apply andb_true_iff in EB. destruct EB as [_ EB]. apply N.eqb_eq in EB. subst id'. pose proof (D _ _ _ HJ HC) as ->. rewrite B1 in HJ. injection HJ as <-. exact VL. }
      destruct (aget str_eqb (f_seq f) (local_map st t (f_id f))) as [hit|] eqn:EH.
      { injection E as <- <-. split; [apply NEW; auto|]. apply TK. rewrite (B4 _ _ EH). reflexivity. }
      destruct (merge_word pop m no_draw (f_seq f)) as [w|e|] eqn:EW; injection E as <- <-; (split; [apply NEW|apply TK; reflexivity]); auto.
      intros s w' X. destruct ((blen (f_seq f) <? max_length) && (length (local_map st t (f_id f)) <? f_cap f)); [|auto].
      rewrite (aget_aset str_eqb str_eqb_eq) in X. destruct (str_eqb s (f_seq f)) eqn:ES; [|auto]. apply str_eqb_eq in ES. subst s. injection X as <-. auto.
  Qed.

  Lemma run_inv ops : forall dirty st st' outs rest, inv dirty st -> (forall k, In k dirty -> k < length (g_insts st)) -> run pop st ops = Some (st', outs) -> disciplined dirty (ops ++ rest) ->
    exists dirty', inv dirty' st' /\ (forall k, In k dirty' -> k < length (g_insts st')) /\ disciplined dirty' rest.
  Proof.
    induction ops as [|o ops IH]; intros dirty st st' outs rest H HD E D.
    - cbn in E. injection E as <- _. exists dirty. auto.
    - cbn [run] in E. destruct (step pop st o) as [[st1 out]|] eqn:ES; [|discriminate]. destruct (run pop st1 ops) as [[st2 outs']|] eqn:ER; [|discriminate]. injection E as -> _.
      assert (DS : (forall t k s d, o = OStart t k s d -> ~ In k dirty) /\ disciplined (after dirty o) (ops ++ rest)).
      { destruct o; cbn [app disciplined after] in *; (split; [intros t' k' s' d' X; try discriminate|try tauto; exact D]). injection X as <- <- <- <-. tauto. }
      destruct DS as [DS1 DS2]. destruct (step_inv _ _ _ _ _ H HD DS1 ES) as [H' _]. eapply IH; [exact H'| |exact ER|exact DS2].
      intros k HK. eapply bounded_after; eauto.
  Qed.

  Lemma inv0 : inv [] world0.
  Proof. constructor; cbn; try (intros [|]; discriminate); tauto. Qed.
End local.

(** In every history of models built, cloned, cleared, resized and modified, and
    of calls interleaved over any number of threads, each call returns what the
    computation without cache returns for the model as it is, as long as the
    cache is cleared after changing what words depend on. *)
Theorem C35_bpe : forall pop ops st outs o st' out,
  run pop world0 ops = Some (st, outs) -> disciplined [] (ops ++ [o]) -> step pop st o = Some (st', Some out) ->
  exists i, nth_error (g_insts st) (o_inst out) = Some i /\
    o_tokens out = bpe_tokenize pop (i_model i) (o_draws out) (o_seq out).
Proof.
  intros pop ops st outs o st' out R D S.
  destruct (run_inv pop ops [] world0 st outs [o] (inv0 pop) ltac:(cbn; tauto) R D) as (dirty & H & HD & D').
  destruct (step_inv pop dirty st o st' (Some out) H HD) as [_ X]; [|exact S|apply X; reflexivity].
  intros t k s d ->. cbn in D'. tauto.
Qed.

(** A call never waits: once started it can finish, whatever the others do. *)
Theorem C35_bpe_progress : forall pop ops st outs t f,
  run pop world0 ops = Some (st, outs) -> disciplined [] ops -> aget Nat.eqb t (g_calls st) = Some f ->
  exists st' out, step pop st (OFinish t) = Some (st', Some out) /\ o_inst out = f_inst f /\ o_seq out = f_seq f.
Proof.
  intros pop ops st outs t f R D HC. rewrite <- (app_nil_r ops) in D.
  destruct (run_inv pop ops [] world0 st outs [] (inv0 pop) ltac:(cbn; tauto) R D) as (dirty & H & HD & _).
  destruct (v_calls _ _ _ H _ _ (calls_in _ _ _ HC)) as [_ (i & E & _) _ _]. cbn [step]. rewrite HC, E. destruct i as [m c].
  destruct (aget str_eqb (f_seq f) (local_map st t (f_id f))); [eauto 8|]. destruct (merge_word pop m no_draw (f_seq f)); eauto 8.
Qed.

(** Two models of two letters: the second knows the merge. *)
Definition tiny (d : dropout_value) (merges : list ((N * N) * (N * N))) : bpe :=
  mkBpe [([97], 0); ([98], 1); ([97; 98], 2)]%N [(0, [97]); (1, [98]); (2, [97; 98])]%N merges d None None None false false false.

(** A history with two threads, a clear during a call, a change of settings, a clone. *)
Definition ex_history : list op :=
  [OBuild (tiny DNone []) 5; OStart 1 0 [97; 98]%N no_draw; OStart 2 0 [97; 98]%N no_draw; OClear 0; OFinish 2; OFinish 1;
   OSet 0 (tiny DNone [((0, 1), (0, 2))]%N); OClone 0; OStart 2 1 [97; 98]%N no_draw; OFinish 2; OClear 0; OStart 1 0 [97; 98]%N no_draw; OFinish 1].

Example C35_bpe_ex : disciplined [] ex_history /\ exists st, run pop_min world0 ex_history = Some (st,
  [mkOut 0 [97; 98]%N no_draw (Ok [mkTok 0%N [97]%N (0, 1); mkTok 1%N [98]%N (1, 2)]);
   mkOut 0 [97; 98]%N no_draw (Ok [mkTok 0%N [97]%N (0, 1); mkTok 1%N [98]%N (1, 2)]);
   mkOut 1 [97; 98]%N no_draw (Ok [mkTok 2%N [97; 98]%N (0, 2)]);
   mkOut 0 [97; 98]%N no_draw (Ok [mkTok 2%N [97; 98]%N (0, 2)])]).
Proof.
  split; [cbn; repeat split; auto; intuition discriminate|]. eexists. vm_compute. reflexivity.
Qed.

(** Without the clear, the change is not seen: the result is that of the old model. *)
Theorem C35_bpe_stale_refuted :
  exists m m' ops st outs st' out,
    ops = [OBuild m 5; OStart 0 0 [97; 98]%N no_draw; OFinish 0; OSet 0 m'; OStart 0 0 [97; 98]%N no_draw] /\
    run pop_min world0 ops = Some (st, outs) /\ step pop_min st (OFinish 0) = Some (st', Some out) /\
    o_tokens out <> bpe_tokenize pop_min m' no_draw [97; 98]%N /\ o_tokens out = bpe_tokenize pop_min m no_draw [97; 98]%N.
Proof.
  exists (tiny DNone []), (tiny DNone [((0, 1), (0, 2))]%N). eexists _, _, _, _, _. split; [reflexivity|]. split; [vm_compute; reflexivity|]. split; [vm_compute; reflexivity|].
  split; [vm_compute; discriminate|vm_compute; reflexivity].
Qed.

(** ** Shared cache *)
Section shared_proofs.
  Context {M R E V : Type} (compute : M -> str -> res E V) (direct : M -> R -> str -> option (res E V)).

  Definition phase_ok (m : M) (p : phase R V) : Prop :=
    match p with PComputed s rnd v | PChecked s rnd v => uncached compute direct m rnd s = Ok v /\ compute m s = Ok v end.

  Definition checked (p : phase R V) : Prop := match p with PChecked _ _ _ => True | _ => False end.

  Record sinv (dirty : bool) (st : shared M R V) : Prop := {
    sv_map : dirty = false -> forall s v, aget str_eqb s (c_map st) = Some v -> compute (c_model st) s = Ok v;
    sv_calls : forall t p, In (t, p) (c_calls st) -> phase_ok (c_model st) p;
    sv_room : forall t p, In (t, p) (c_calls st) -> checked p -> length (c_map st) <= c_cap st }.

  Definition safter (dirty : bool) (o : sop M R) : bool := match o with SSet _ => true | SClear => false | _ => dirty end.

  Lemma aset_length (s : str) (v : V) l : length (aset str_eqb s v l) <= S (length l).
  Proof. induction l as [|[k u] l IH]; cbn; [lia|]. destruct (str_eqb s k); cbn; lia. Qed.

  Lemma sstep_inv dirty st o st' out : sinv dirty st -> (forall t s r l, o = SStart t s r l -> dirty = false) -> sstep compute direct st o = Some (st', out) ->
    sinv (safter dirty o) st' /\ (forall x, out = Some x -> so_res x = uncached compute direct (c_model st) (so_rnd x) (so_seq x)) /\
    (c_cap st' = c_cap st -> length (c_map st) <= c_cap st -> length (c_map st') <= c_cap st').
  Proof.
    intros [h1 h2 h3] HS H. destruct o as [t s rnd locked|t locked|t locked| |cap|m]; cbn [sstep safter] in *.
    - specialize (HS _ _ _ _ eq_refl). destruct (aget Nat.eqb t (c_calls st)) eqn:EC; [discriminate|].
      destruct (direct (c_model st) rnd s) as [r|] eqn:ED.
      { injection H as <- <-. split; [constructor; auto|]. split; [|auto]. intros x X. injection X as <-. cbn. unfold uncached. rewrite ED. reflexivity. }
      assert (UC : forall r, compute (c_model st) s = r -> uncached compute direct (c_model st) rnd s = r) by (intros r <-; unfold uncached; rewrite ED; reflexivity).
      destruct (if locked then None else aget str_eqb s (c_map st)) as [v|] eqn:EG.
      { injection H as <- <-. split; [constructor; auto|]. split; [|auto]. intros x X. injection X as <-. cbn. symmetry. apply UC. destruct locked; [discriminate|]. apply h1; assumption. }
      destruct (compute (c_model st) s) as [v|e|] eqn:ECo.
      + destruct (blen s <? max_length); injection H as <- <-.
        * split; [|split; [discriminate|auto]]. constructor; cbn [put_call c_map c_model c_cap c_calls]; [exact h1| |].
          -- intros t' p [X|X]; [injection X as <- <-; cbn; split; [apply UC; reflexivity|exact ECo]|]. apply drop_key_in in X. eapply h2. apply X.
          -- intros t' p [X|X] CP; [injection X as <- <-; destruct CP|]. apply drop_key_in in X. eapply h3; [apply X|exact CP].
        * split; [constructor; auto|]. split; [|auto]. intros x X. injection X as <-. cbn. symmetry. apply UC. reflexivity.
      + injection H as <- <-. split; [constructor; auto|]. split; [|auto]. intros x X. injection X as <-. cbn. symmetry. apply UC. reflexivity.
      + injection H as <- <-. split; [constructor; auto|]. split; [|auto]. intros x X. injection X as <-. cbn. symmetry. apply UC. reflexivity.
    - destruct (aget Nat.eqb t (c_calls st)) as [[s rnd v|s rnd v]|] eqn:EC; [|discriminate|discriminate]. apply calls_in in EC. pose proof (h2 _ _ EC) as [P P2].
      assert (END : sinv dirty (end_call st t)).
      { constructor; cbn [end_call c_map c_model c_cap c_calls]; [exact h1| |]; intros t' p X; apply drop_key_in in X; [eapply h2; apply X|eapply h3; apply X]. }
      destruct locked; [injection H as <- <-; split; [exact END|]; split; [intros x X; injection X as <-; cbn; symmetry; exact P|auto]|].
      destruct (c_cap st <=? length (c_map st)) eqn:EL; [injection H as <- <-; split; [exact END|]; split; [intros x X; injection X as <-; cbn; symmetry; exact P|auto]|].
      apply Nat.leb_gt in EL. injection H as <- <-. split; [|split; [discriminate|auto]]. constructor; cbn [put_call c_map c_model c_cap c_calls]; [exact h1| |].
      + intros t' p [X|X]; [injection X as <- <-; cbn; auto|]. apply drop_key_in in X. eapply h2. apply X.
      + intros t' p _ _. lia.
    - destruct (aget Nat.eqb t (c_calls st)) as [[s rnd v|s rnd v]|] eqn:EC; [discriminate| |discriminate]. apply calls_in in EC. pose proof (h2 _ _ EC) as [P P2]. pose proof (h3 _ _ EC I) as LE.
      destruct locked.
      { injection H as <- <-. split; [|split; [intros x X; injection X as <-; cbn; symmetry; exact P|auto]].
        constructor; cbn [end_call c_map c_model c_cap c_calls]; [exact h1| |]; intros t' p X; apply drop_key_in in X; [eapply h2; apply X|eapply h3; apply X]. }
      replace (c_cap st <? length (c_map st)) with false in H by (symmetry; apply Nat.ltb_ge; exact LE).
      set (map' := fold_left (fun m e => aset str_eqb (fst e) (snd e) m) (firstn (c_cap st - length (c_map st)) [(s, v)]) (c_map st)) in *.
      assert (LM : length map' <= c_cap st).
      { unfold map'. destruct (c_cap st - length (c_map st)) as [|n] eqn:EF; [cbn; exact LE|]. rewrite firstn_all2 by (cbn; lia). cbn. pose proof (aset_length s v (c_map st)). lia. }
      assert (GM : forall s' v', aget str_eqb s' map' = Some v' -> aget str_eqb s' (c_map st) = Some v' \/ (s' = s /\ v' = v)).
      { intros s' v' X. unfold map' in X. destruct (c_cap st - length (c_map st)) as [|n]; [cbn in X; auto|]. rewrite firstn_all2 in X by (cbn; lia). cbn in X.
        rewrite (aget_aset str_eqb str_eqb_eq) in X. destruct (str_eqb s' s) eqn:ES; [|auto]. apply str_eqb_eq in ES. injection X as ->. auto. }
      injection H as <- <-. split; [|split; [intros x X; injection X as <-; cbn; symmetry; exact P|cbn; auto]].
      constructor; cbn [c_map c_model c_cap c_calls].
      + intros ND s' v' X. destruct (GM _ _ X) as [Y|[-> ->]]; [apply h1; assumption|exact P2].
      + intros t' p X; apply drop_key_in in X. eapply h2; apply X.
      + intros t' p _ _. exact LM.
    - destruct (is_nil (c_calls st)); [|discriminate]. injection H as <- <-. split; [constructor; cbn; [discriminate|tauto|tauto]|]. split; [discriminate|cbn; lia].
    - destruct (is_nil (c_calls st)); [|discriminate]. injection H as <- <-. split; [constructor; cbn; [exact h1|tauto|tauto]|]. split; [discriminate|cbn; lia].
    - destruct (is_nil (c_calls st)); [|discriminate]. injection H as <- <-. split; [constructor; cbn; [discriminate|tauto|tauto]|]. split; [discriminate|cbn; lia].
  Qed.

  Lemma srun_inv ops : forall dirty st st' outs rest, sinv dirty st -> srun compute direct st ops = Some (st', outs) -> sdisciplined dirty (ops ++ rest) ->
    exists dirty', sinv dirty' st' /\ sdisciplined dirty' rest /\
      (Forall (fun o => ~ is_resize o) ops -> length (c_map st) <= c_cap st -> length (c_map st') <= c_cap st' /\ c_cap st' = c_cap st).
  Proof.
    induction ops as [|o ops IH]; intros dirty st st' outs rest H ER D.
    - cbn in ER. injection ER as <- _. exists dirty. auto.
    - cbn [srun] in ER. destruct (sstep compute direct st o) as [[st1 out]|] eqn:ES; [|discriminate]. destruct (srun compute direct st1 ops) as [[st2 outs']|] eqn:E2; [|discriminate]. injection ER as -> _.
      assert (DS : (forall t s r l, o = SStart t s r l -> dirty = false) /\ sdisciplined (safter dirty o) (ops ++ rest)).
      { destruct o; cbn [app sdisciplined safter] in *; (split; [intros t' s' r' l' X; try discriminate|try tauto; exact D]). tauto. }
      destruct DS as [DS1 DS2]. destruct (sstep_inv _ _ _ _ _ H DS1 ES) as (H' & _ & L). destruct (IH _ _ _ _ _ H' E2 DS2) as (d' & A & B & C). exists d'. split; [exact A|]. split; [exact B|].
      intros F LE. inversion F as [|? ? F1 F2]; subst.
      assert (EC : c_cap st1 = c_cap st).
      { clear - ES F1. destruct o; cbn [sstep] in ES; try (exfalso; apply F1; exact I);
          repeat match goal with H : context [match ?x with _ => _ end] |- _ => destruct x; try discriminate end; injection ES as <- _; reflexivity. }
      destruct (C F2) as [C1 C2]; [rewrite EC; rewrite <- EC; apply L; [exact EC|exact LE]|]. split; [exact C1|congruence].
  Qed.
End shared_proofs.

(** The shared cache: whatever locks could not be taken, each call returns what
    the computation without cache returns. *)
Theorem C35_shared : forall {M R E V} (compute : M -> str -> res E V) (direct : M -> R -> str -> option (res E V)) m cap ops st outs o st' out,
  srun compute direct (shared0 m cap) ops = Some (st, outs) -> sdisciplined false (ops ++ [o]) -> sstep compute direct st o = Some (st', Some out) ->
  so_res out = uncached compute direct (c_model st) (so_rnd out) (so_seq out).
Proof.
  intros M R E V compute direct m cap ops st outs o st' out HR D S.
  assert (I0 : sinv (R := R) compute direct false (shared0 m cap)) by (constructor; cbn; [discriminate|tauto|tauto]).
  destruct (srun_inv compute direct ops false _ _ _ [o] I0 HR D) as (d & H & D' & _).
  destruct (sstep_inv compute direct d st o st' (Some out) H) as (_ & X & _); [|exact S|apply X; reflexivity].
  intros t s r l ->. cbn in D'. tauto.
Qed.

(** It never holds more entries than its capacity if it is not resized; and even
    when it is, [capacity - len] never underflows. *)
Theorem C35_shared_bounded : forall {M R E V} (compute : M -> str -> res E V) (direct : M -> R -> str -> option (res E V)) m cap ops st outs,
  srun compute direct (shared0 m cap) ops = Some (st, outs) -> sdisciplined false ops -> Forall (fun o => ~ is_resize o) ops ->
  length (c_map st) <= cap /\ c_cap st = cap.
Proof.
  intros M R E V compute direct m cap ops st outs HR D F.
  assert (I0 : sinv (R := R) compute direct false (shared0 m cap)) by (constructor; cbn; [discriminate|tauto|tauto]).
  rewrite <- (app_nil_r ops) in D. destruct (srun_inv compute direct ops false _ _ _ [] I0 HR D) as (d & _ & _ & L). destruct (L F) as [A B]; [cbn; lia|]. cbn in B. split; [lia|exact B].
Qed.

Theorem C35_shared_no_underflow : forall {M R E V} (compute : M -> str -> res E V) (direct : M -> R -> str -> option (res E V)) m cap ops st outs t locked st' out,
  srun compute direct (shared0 m cap) ops = Some (st, outs) -> sdisciplined false ops -> sstep compute direct st (SWrite t locked) = Some (st', Some out) ->
  exists v, so_res out = Ok v.
Proof.
  intros M R E V compute direct m cap ops st outs t locked st' out HR D S.
  assert (I0 : sinv (R := R) compute direct false (shared0 m cap)) by (constructor; cbn; [discriminate|tauto|tauto]).
  rewrite <- (app_nil_r ops) in D. destruct (srun_inv compute direct ops false _ _ _ [] I0 HR D) as (d & H & _ & _).
  cbn [sstep] in S. destruct (aget Nat.eqb t (c_calls st)) as [[s rnd v|s rnd v]|] eqn:EC; [discriminate| |discriminate]. apply calls_in in EC. pose proof (sv_room _ _ _ _ H _ _ EC I) as LE.
  destruct locked; [injection S as _ <-; cbn; eauto|]. replace (c_cap st <? length (c_map st)) with false in S by (symmetry; apply Nat.ltb_ge; exact LE). injection S as _ <-. cbn. eauto.
Qed.

(** Two threads miss, both compute, both store; the capacity is 1; a later call hits. *)
Example C35_shared_ex :
  let compute (m : nat) (s : str) : res unit nat := Ok (m + length s) in
  let direct (m : nat) (r : unit) (s : str) := if is_nil s then Some (Ok 0) else None in
  let ops := [SStart 1 [97]%N tt false; SStart 2 [98; 98]%N tt true; SCheck 2 false; SCheck 1 false; SWrite 1 false; SWrite 2 false; SStart 1 [97]%N tt false] in
  sdisciplined false ops /\
  exists st, srun compute direct (shared0 7 1) ops = Some (st, [mkSOut [97]%N tt (Ok 8); mkSOut [98; 98]%N tt (Ok 9); mkSOut [97]%N tt (Ok 8)]) /\ length (c_map st) = 1.
Proof. cbn zeta. split; [cbn; tauto|]. eexists. split; [vm_compute; reflexivity|reflexivity]. Qed.
