(** Proofs about truncation inside [encode]: lengths, panics, limited tokenisation. *)
From Verif Require Import Base ListFacts StrBytes EncodingModel EncodingSpec EncodingProofs EncodingProofs2 TruncPadModel TruncPadProofs
  NormModel PreTokModel PreTokSpec PreTokProofs PreTokProofs2 AddedModel ProcessorsModel ProcessorsSpec ProcessorsProofs ProcessorsProofs4 ProcessorsProofs5
  TokenizerModel TokenizerSpec TokenizerProofs EncodingProps PreTokProps ProcessorsProps.

(** ** The lengths a truncation aims at *)
Definition plan (l1 : nat) (l2 : option nat) (m : nat) (s : trunc_strategy) : res trunc_error (nat * nat) :=
  let n2 := match l2 with Some n => n | None => 0 end in
  if m =? 0 then Ok (0, 0)
  else if l1 + n2 <=? m then Ok (l1, n2)
  else match s with
       | LongestFirst => match l2 with Some n => Ok (longest_first_lengths l1 n m) | None => Ok (m, 0) end
       | OnlyFirst => if n2 <? m then Ok (m - n2, n2) else Err SequenceTooShort
       | OnlySecond => match l2 with
                       | None => Err SecondSequenceNotProvided
                       | Some n => if l1 <? m then Ok (l1, m - l1) else Err SequenceTooShort
                       end
       end.

Lemma truncate_fits e n st d : enc_len e <= n -> truncate e n st d = Ok e.
Proof. apply C01_truncate_fits. Qed.

Lemma truncate_plan e pair p :
  truncate_encodings e pair p =
  let! k := plan (enc_len e) (option_map enc_len pair) (tp_max_length p) (tp_strategy p) in
  let! e' := lift_res (truncate e (fst k) (tp_stride p) (tp_direction p)) in
  match pair with
  | None => Ok (e', None)
  | Some o => let! o' := lift_res (truncate o (snd k) (tp_stride p) (tp_direction p)) in Ok (e', Some o')
  end.
Proof.
  destruct p as [d m s st]. unfold truncate_encodings, plan. cbn [tp_max_length tp_strategy tp_stride tp_direction].
  destruct (Nat.eqb_spec m 0) as [->|Hm]; [cbn [bind fst snd]; reflexivity|].
  destruct pair as [o|]; cbn [opt_len option_map].
  - destruct (Nat.leb_spec (enc_len e + enc_len o) m) as [Hl|Hl].
    { cbn [bind fst snd]. rewrite !truncate_fits by lia. reflexivity. }
    destruct s.
    + destruct (longest_first_lengths (enc_len e) (enc_len o) m) as [n1 n2]. reflexivity.
    + destruct (Nat.ltb_spec (enc_len e + enc_len o - m) (enc_len e)); destruct (Nat.ltb_spec (enc_len o) m); try lia; cbn [bind fst snd]; [|reflexivity].
      rewrite (truncate_fits o) by lia. replace (enc_len e - (enc_len e + enc_len o - m)) with (m - enc_len o) by lia. reflexivity.
    + destruct (Nat.ltb_spec (enc_len e + enc_len o - m) (enc_len o)); destruct (Nat.ltb_spec (enc_len e) m); try lia; cbn [bind fst snd]; [|reflexivity].
      rewrite (truncate_fits e) by lia. replace (enc_len o - (enc_len e + enc_len o - m)) with (m - enc_len e) by lia. reflexivity.
  - destruct (Nat.leb_spec (enc_len e + 0) m) as [Hl|Hl].
    { cbn [bind fst snd]. rewrite !truncate_fits by lia. reflexivity. }
    destruct s; cbn [bind fst snd].
    + replace (enc_len e + 0 - (enc_len e + 0 - m)) with m by lia. reflexivity.
    + destruct (Nat.ltb_spec (enc_len e + 0 - m) (enc_len e)); destruct (Nat.ltb_spec 0 m); try lia; cbn [bind fst snd].
      replace (enc_len e - (enc_len e + 0 - m)) with (m - 0) by lia. reflexivity.
    + reflexivity.
Qed.

Lemma plan_no_panic l1 l2 m s : plan l1 l2 m s <> Panic.
Proof.
  unfold plan. destruct (m =? 0); [discriminate|]. destruct (_ <=? m); [discriminate|].
  destruct s; [destruct l2; discriminate|destruct (_ <? m); discriminate|]. destruct l2; [|discriminate]. destruct (_ <? m); discriminate.
Qed.

Definition half_spec (m h r : nat) : Prop := m = 2 * h + r /\ r < 2.
Lemma halves m : half_spec m (m / 2) (m mod 2).
Proof. split; [apply Nat.div_mod; lia|apply Nat.mod_upper_bound; lia]. Qed.

Ltac plan_fin :=
  split; [|split; [|split; [|split]]]; intros;
  try match goal with G : _ = _ -> Some _ <> None -> _ |- _ => assert (2 <= _) by (apply G; [reflexivity|discriminate]) end;
  try split; intros; try lia; try discriminate.

(** What the plan guarantees. *)
Lemma plan_bounds l1 l2 m s k1 k2 : plan l1 l2 m s = Ok (k1, k2) ->
  let n2 := match l2 with Some n => n | None => 0 end in
  k1 <= l1 /\ k2 <= n2 /\ k1 + k2 <= m /\
  (0 < m -> (s = LongestFirst -> l2 <> None -> 2 <= m) -> (k1 = 0 -> l1 = 0) /\ (k2 = 0 -> n2 = 0)) /\
  (s = LongestFirst -> (k1 < l1 -> m / 2 <= k1) /\ (k2 < n2 -> m / 2 <= k2)).
Proof.
  cbn zeta. unfold plan. pose proof (halves m) as [Hm Hr].
  destruct (Nat.eqb_spec m 0) as [E0|E0]; [intros H; injection H as <- <-; plan_fin|].
  destruct (Nat.leb_spec (l1 + match l2 with Some n => n | None => 0 end) m) as [El|El].
  { intros H. injection H as <- <-. plan_fin. }
  destruct s.
  - destruct l2 as [n|].
    + unfold longest_first_lengths. set (h := m / 2) in *. set (r := m mod 2) in *. clearbody h r.
      destruct (Nat.ltb_spec n l1) as [C1|C1].
      * destruct (Nat.ltb_spec m n) as [C2|C2].
        { destruct (Nat.ltb_spec m (n + n)) as [C3|C3]; intros H; injection H as <- <-; plan_fin. }
        { destruct (Nat.ltb_spec m (n + Nat.max n (m - n))) as [C3|C3]; intros H; injection H as <- <-; plan_fin. }
      * destruct (Nat.ltb_spec m l1) as [C2|C2].
        { destruct (Nat.ltb_spec m (l1 + l1)) as [C3|C3]; intros H; injection H as <- <-; plan_fin. }
        { destruct (Nat.ltb_spec m (l1 + Nat.max l1 (m - l1))) as [C3|C3]; intros H; injection H as <- <-; plan_fin. }
    + intros H. injection H as <- <-. plan_fin.
  - destruct (Nat.ltb_spec (match l2 with Some n => n | None => 0 end) m) as [C|C]; [|discriminate].
    intros H. injection H as <- <-. plan_fin.
  - destruct l2 as [n|]; [|discriminate]. destruct (Nat.ltb_spec l1 m) as [C|C]; [|discriminate].
    intros H. injection H as <- <-. plan_fin.
Qed.

(** ** Encodings that tokenisation produces *)
Definition tokenised (e : encoding) : Prop := parallel e /\ overflowing e = [].

Lemma into_encoding_tokenised pt w ty ot e : into_encoding pt w ty ot = Ok e -> tokenised e.
Proof.
  intros H. destruct (forallb has_tokens (pt_splits pt)) eqn:F.
  - rewrite into_encoding_build in H by exact F. apply bind_ok in H. destruct H as (r & _ & H). injection H as <-.
    split; [apply from_rows_parallel|reflexivity].
  - exfalso. unfold into_encoding in H. rewrite F in H. destruct (pt_splits pt); discriminate.
Qed.

Lemma encode_part_tokenised t ty ot w s e : encode_part t ty ot w s = Ok e -> tokenised e.
Proof.
  unfold encode_part. intros H. apply bind_ok in H. destruct H as (p1 & _ & H). apply bind_ok in H. destruct H as (p2 & _ & H).
  unfold do_tokenize in H. apply bind_ok in H. destruct H as (p3 & _ & H). eapply into_encoding_tokenised. exact H.
Qed.

Lemma merge_tokenised es : Forall tokenised es -> tokenised (merge false es).
Proof.
  intros H. split.
  - apply merge_parallel. eapply Forall_impl; [|exact H]. intros e [P _]. exact P.
  - unfold merge. assert (G : forall acc, overflowing acc = [] -> overflowing (fold_left (merge_with false) es acc) = []); [|apply G; reflexivity].
    induction H as [|e es [_ He] _ IH]; intros acc Ha; cbn [fold_left]; [exact Ha|]. apply IH.
    rewrite overflowing_merge_with, Ha, He. reflexivity.
Qed.

Lemma encode_single_tokenised t sq ty ot e : encode_single t sq ty ot = Ok e -> tokenised e.
Proof.
  destruct sq as [s|ws]; cbn [encode_single]; [apply encode_part_tokenised|].
  intros H. apply bind_ok in H. destruct H as (es & H1 & H2). injection H2 as <-. apply merge_tokenised.
  apply map_res_ok in H1. clear -H1. induction H1 as [|x e l es H _ IH]; [constructor|]. constructor; [|exact IH].
  eapply encode_part_tokenised. exact H.
Qed.

(** ** Windows of a truncated encoding *)
Lemma truncate_nodes e n st d e' : tokenised e -> truncate e n st d = Ok e' -> (n = 0 -> enc_len e = 0) ->
  parallel e' /\ forall x, node e' x -> enc_len x <= n.
Proof.
  intros [[Hs Ho] Hov] H H0. destruct (Nat.le_gt_cases (enc_len e) n) as [L|L].
  { rewrite truncate_fits in H by exact L. injection H as <-. split; [constructor; assumption|].
    intros x Hx. rewrite (node_no_over _ _ Hov Hx). exact L. }
  assert (Hn : 0 < n) by lia. assert (Hst : st < n).
  { destruct (Nat.lt_ge_cases st n) as [G|G]; [exact G|]. assert (X : truncate e n st d = Panic) by (apply truncate_panic_iff; auto). congruence. }
  destruct (truncate_main e n st d Hs Hn L Hst) as (e2 & E2 & S2 & _ & F2 & T2). rewrite H in E2. injection E2 as <-.
  assert (W : forall w, In w (rows e' :: map rows (overflowing e')) -> length w <= n).
  { intros w Hw. destruct d; [|destruct T2 as (_ & T2 & _)].
    - destruct T2 as (_ & T2 & _). apply (in_map (@rev row)) in Hw. apply In_nth_error in Hw. destruct Hw as (i & Hi).
      destruct (T2 i _ Hi) as [T _]. rewrite rev_length in T. exact T.
    - apply In_nth_error in Hw. destruct Hw as (i & Hi). exact (proj1 (T2 i _ Hi)). }
  split.
  - constructor; [exact S2|]. eapply Forall_impl; [|exact F2]. intros o (O1 & O2 & _). constructor; [exact O1|]. rewrite O2. constructor.
  - intros x Hx. inversion Hx as [|o y Hin Hy]; subst.
    + rewrite <- (rows_length x S2). apply W. left. reflexivity.
    + rewrite Forall_forall in F2. destruct (F2 o Hin) as (O1 & O2 & _). rewrite (node_no_over _ _ O2 Hy).
      rewrite <- (rows_length o O1). apply W. right. apply in_map, Hin.
Qed.

Lemma truncate_parallel e n st d e' : tokenised e -> truncate e n st d = Ok e' -> parallel e'.
Proof.
  intros T H. destruct (Nat.eq_dec n 0) as [->|Hn].
  - destruct T as [[Hs Ho] Hov]. destruct (Nat.eq_dec (enc_len e) 0) as [Z|Z].
    + rewrite truncate_fits in H by lia. injection H as <-. constructor; assumption.
    + unfold truncate in H. unfold enc_len in Z. destruct (Nat.leb_spec (length (ids e)) 0); [lia|]. cbn [Nat.eqb] in H. injection H as <-.
      constructor; [repeat split|]. constructor; [constructor; assumption|constructor].
  - eapply truncate_nodes; [exact T|exact H|lia].
Qed.

Lemma truncated_len e n st d e' : same_lengths e -> truncate e n st d = Ok e' -> enc_len e' = Nat.min n (enc_len e).
Proof.
  intros Hs H. destruct (truncate_rows e n st d e' Hs H) as [R S']. rewrite <- (rows_length e' S'), R, kept_length, (rows_length e Hs). reflexivity.
Qed.

(** ** Post-processing *)
Lemma set_sequence_id_node e s x : node (set_sequence_id e s) x -> exists y, node e y /\ enc_len y = enc_len x.
Proof.
  intros H. inversion H as [|o y Hin Hy]; subst; [exists e; split; [constructor|reflexivity]|].
  exists x. split; [eapply node_over; [exact Hin|exact Hy]|reflexivity].
Qed.

Lemma merge_main_len g a b o : enc_len (merge_main g a b o) = enc_len a + enc_len b.
Proof. unfold enc_len, merge_main. cbn [ids]. apply app_length. Qed.

Lemma set_sequence_id_parallel e s : parallel e -> parallel (set_sequence_id e s).
Proof. intros [H1 H2]. constructor; assumption. Qed.

Lemma process_step_len t a b add : post_ok t -> parallel a -> EncodingSpec.opt_parallel b ->
  exists out, process_step t a b add = Ok out /\ parallel out /\
    let n := if add then n_added t (is_some b) else 0 in
    enc_len out = enc_len a + opt_len b + n /\
    forall x, node out x -> exists a' b', node a a' /\ opt_node b b' /\ enc_len x = enc_len a' + opt_len b' + n.
Proof.
  intros K Pa Pb. unfold process_step, post_ok, n_added in *. destruct (tz_post t) as [p|].
  - destruct (C45_accurate (tz_blank t) p a b add K Pa Pb) as (out & E & Po & (L & _) & N). rewrite E. cbn [other].
    exists out. split; [reflexivity|]. split; [exact Po|]. cbn zeta. split.
    + rewrite L. destruct b; cbn [given map list_sum fold_right opt_len]; lia.
    + intros x Hx. destruct (N x Hx) as (a' & b' & Ha & Hb & (L' & _)). exists a', b'. split; [exact Ha|]. split; [exact Hb|].
      rewrite L'. destruct b'; cbn [given map list_sum fold_right opt_len]; lia.
  - replace (if add then 0 else 0) with 0 by (destruct add; reflexivity). destruct b as [o|]; cbn [default_process].
    + cbn [length seq combine fold_left fst snd]. eexists. split; [reflexivity|].
      assert (P0 : parallel (merge_with false empty_enc (set_sequence_id a 0))).
      { apply merge_with_parallel; [constructor; [repeat split|constructor]|apply set_sequence_id_parallel, Pa]. }
      split; [apply merge_with_parallel; [exact P0|apply set_sequence_id_parallel, Pb]|]. cbn zeta. split.
      * rewrite !merge_with_unfold. rewrite !merge_main_len. change (enc_len empty_enc) with 0.
        change (enc_len (set_sequence_id a 0)) with (enc_len a). change (enc_len (set_sequence_id o 1)) with (enc_len o). cbn [opt_len]. lia.
      * intros x Hx. destruct (merge_with_node _ _ _ _ Hx) as (a1 & b1 & o1 & Na & Nb & ->).
        destruct (merge_with_node _ _ _ _ Na) as (a2 & b2 & o2 & Na2 & Nb2 & ->).
        assert (a2 = empty_enc) by (apply node_no_over in Na2; [exact Na2|reflexivity]). subst a2.
        destruct (set_sequence_id_node _ _ _ Nb) as (y & Ny & Ly). destruct (set_sequence_id_node _ _ _ Nb2) as (z & Nz & Lz).
        exists z, (Some y). split; [exact Nz|]. split; [exact Ny|]. rewrite !merge_main_len. change (enc_len empty_enc) with 0. cbn [opt_len]. lia.
    + exists a. split; [reflexivity|]. split; [exact Pa|]. cbn zeta. split; [cbn [opt_len]; lia|].
      intros x Hx. exists x, None. split; [exact Hx|]. split; [exact Logic.I|]. cbn [opt_len]. lia.
Qed.

(** ** The truncation step *)
Lemma truncate_step_eq t p e pair add : tz_truncation t = Some p ->
  truncate_step t e pair add =
  if (if add then n_added t (is_some pair) else 0) <=? tp_max_length p
  then trunc (truncate_encodings e pair (mkTruncParams (tp_direction p) (room t p (is_some pair) add) (tp_strategy p) (tp_stride p)))
  else Panic.
Proof.
  intros H. unfold truncate_step, room. rewrite H.
  change (match pair with Some _ => true | None => false end) with (is_some pair).
  set (n := n_added t (is_some pair)). destruct add; cbn [andb].
  - destruct (Nat.ltb_spec 0 n) as [C|C].
    + destruct (Nat.ltb_spec (tp_max_length p) n); destruct (Nat.leb_spec n (tp_max_length p)); try lia; reflexivity.
    + replace n with 0 by lia. cbn [Nat.leb]. rewrite Nat.sub_0_r. destruct p; reflexivity.
  - cbn [Nat.leb]. rewrite Nat.sub_0_r. destruct p; reflexivity.
Qed.

Lemma bind_trunc_ok {A} (r : res trunc_error A) a : trunc r = Ok a -> r = Ok a.
Proof. destruct r; cbn; congruence. Qed.

Lemma truncate_step_ok t p e pair add e' pair' : tz_truncation t = Some p ->
  tokenised e -> (forall o, pair = Some o -> tokenised o) ->
  truncate_step t e pair add = Ok (e', pair') ->
  (if add then n_added t (is_some pair) else 0) <= tp_max_length p /\
  is_some pair' = is_some pair /\ parallel e' /\ EncodingSpec.opt_parallel pair' /\
  enc_len e' + opt_len pair' <= room t p (is_some pair) add /\
  (0 < room t p (is_some pair) add ->
   (tp_strategy p = LongestFirst -> pair <> None -> 2 <= room t p (is_some pair) add) ->
   forall x y, node e' x -> opt_node pair' y -> enc_len x + opt_len y <= room t p (is_some pair) add).
Proof.
  intros Ht Te Tp H. rewrite (truncate_step_eq t p) in H by exact Ht.
  destruct (Nat.leb_spec (if add then n_added t (is_some pair) else 0) (tp_max_length p)) as [Hn|Hn]; [|discriminate].
  split; [exact Hn|]. apply bind_trunc_ok in H. rewrite truncate_plan in H. cbn [tp_max_length tp_strategy tp_stride tp_direction] in H.
  set (m := room t p (is_some pair) add) in *. apply bind_ok in H. destruct H as ([k1 k2] & Hk & H). cbn [fst snd] in H.
  apply plan_bounds in Hk. cbn zeta in Hk. destruct Hk as (B1 & B2 & B3 & B4 & _).
  apply bind_ok in H. destruct H as (e1 & He & H). apply lift_res_ok in He.
  pose proof (truncated_len _ _ _ _ _ (same_lengths_parallel _ (proj1 Te)) He) as Le.
  pose proof (truncate_parallel _ _ _ _ _ Te He) as Pe.
  destruct pair as [o|].
  - apply bind_ok in H. destruct H as (o1 & Ho & H). apply lift_res_ok in Ho. injection H as <- <-.
    specialize (Tp o eq_refl). pose proof (truncated_len _ _ _ _ _ (same_lengths_parallel _ (proj1 Tp)) Ho) as Lo.
    pose proof (truncate_parallel _ _ _ _ _ Tp Ho) as Po.
    split; [reflexivity|]. split; [exact Pe|]. split; [exact Po|]. cbn [opt_len option_map] in *. split; [lia|].
    intros M1 M2 x y Hx Hy. destruct y as [y|]; [|destruct Hy]. cbn [opt_node] in Hy.
    destruct B4 as [Z1 Z2]; [exact M1|intros Q _; apply M2; [exact Q|discriminate]|].
    pose proof (proj2 (truncate_nodes _ _ _ _ _ Te He Z1) x Hx) as Nx.
    pose proof (proj2 (truncate_nodes _ _ _ _ _ Tp Ho Z2) y Hy) as Ny. cbn [opt_len]. lia.
  - injection H as <- <-. split; [reflexivity|]. split; [exact Pe|]. split; [exact Logic.I|]. cbn [opt_len option_map] in *. split; [lia|].
    intros M1 M2 x y Hx Hy. destruct y as [y|]; [destruct Hy|].
    destruct B4 as [Z1 _]; [exact M1|congruence|].
    pose proof (proj2 (truncate_nodes _ _ _ _ _ Te He Z1) x Hx) as Nx. cbn [opt_len]. lia.
Qed.

Lemma truncate_step_none t e pair add : tz_truncation t = None -> truncate_step t e pair add = Ok (e, pair).
Proof. intros H. unfold truncate_step. rewrite H. reflexivity. Qed.

Lemma encode_sequences t ot input add :
  encode t ot input add = let! ep := other (sequences t ot input) in post_process t (fst ep) (snd ep) add.
Proof.
  destruct input as [a|a b]; cbn [encode sequences].
  - destruct (encode_single t a 0 ot); reflexivity.
  - destruct (encode_single t a 0 ot); [|reflexivity|reflexivity]. cbn [bind other]. destruct (encode_single t b 1 ot); reflexivity.
Qed.

Lemma sequences_tokenised t ot input e pair : sequences t ot input = Ok (e, pair) ->
  tokenised e /\ (forall o, pair = Some o -> tokenised o) /\ is_some pair = is_dual input.
Proof.
  destruct input as [a|a b]; cbn [sequences]; intros H; apply bind_ok in H; destruct H as (e1 & H1 & H).
  - injection H as <- <-. split; [eapply encode_single_tokenised; exact H1|]. split; [discriminate|reflexivity].
  - apply bind_ok in H. destruct H as (o1 & H2 & H). injection H as <- <-. split; [eapply encode_single_tokenised; exact H1|].
    split; [|reflexivity]. intros o E. injection E as <-. eapply encode_single_tokenised. exact H2.
Qed.

Lemma bind_other_ok {A} (r : res unit A) a : other r = Ok a -> r = Ok a.
Proof. destruct r; cbn; congruence. Qed.

(** Panics of post-processing come from truncation only. *)
Lemma post_process_panic t e pair add : post_ok t ->
  tokenised e -> (forall o, pair = Some o -> tokenised o) ->
  (post_process t e pair add = Panic <-> truncate_step t e pair add = Panic).
Proof.
  intros K Te Tp. unfold post_process. destruct (truncate_step t e pair add) as [[e' pair']|x|] eqn:Ht; cbn [bind fst snd]; [|split; discriminate|split; reflexivity].
  split; [|discriminate]. intros H. exfalso.
  assert (PP : parallel e' /\ EncodingSpec.opt_parallel pair').
  { destruct (tz_truncation t) as [p|] eqn:Tt.
    - destruct (truncate_step_ok t p e pair add e' pair' Tt Te Tp Ht) as (_ & _ & P1 & P2 & _). split; assumption.
    - rewrite truncate_step_none in Ht by exact Tt. injection Ht as <- <-. split; [apply Te|]. destruct pair; [apply Tp; reflexivity|exact Logic.I]. }
  destruct (process_step_len t e' pair' add K (proj1 PP) (proj2 PP)) as (out & E & _). rewrite E in H. cbn [bind] in H.
  destruct (pad_step_ok t out) as (y & Ey). congruence.
Qed.

Lemma truncate_step_panic t p e pair add : tz_truncation t = Some p ->
  tokenised e -> (forall o, pair = Some o -> tokenised o) ->
  truncate_step t e pair add = Panic ->
  tp_max_length p < (if add then n_added t (is_some pair) else 0) \/
  exists k1 k2, plan (enc_len e) (option_map enc_len pair) (room t p (is_some pair) add) (tp_strategy p) = Ok (k1, k2) /\
    ((0 < k1 < enc_len e /\ k1 <= tp_stride p) \/ (0 < k2 < opt_len pair /\ k2 <= tp_stride p)).
Proof.
  intros Ht Te Tp H. rewrite (truncate_step_eq t p) in H by exact Ht.
  destruct (Nat.leb_spec (if add then n_added t (is_some pair) else 0) (tp_max_length p)) as [Hn|Hn]; [right|left; exact Hn].
  rewrite truncate_plan in H. cbn [tp_max_length tp_strategy tp_stride tp_direction] in H.
  destruct (plan _ _ _ _) as [[k1 k2]|x|] eqn:Ep; cbn [bind fst snd trunc] in H; [|discriminate|].
  2: { exfalso. exact (plan_no_panic _ _ _ _ Ep). }
  exists k1, k2. split; [reflexivity|].
  destruct (truncate e k1 (tp_stride p) (tp_direction p)) as [e1|x|] eqn:E1; cbn [lift_res bind] in H.
  - right. destruct pair as [o|]; [|discriminate]. destruct (truncate o k2 (tp_stride p) (tp_direction p)) as [o1|x|] eqn:E2; cbn [lift_res bind trunc] in H; [discriminate| |].
    + apply truncate_no_err in E2. destruct E2.
    + apply truncate_panic_iff in E2; [cbn [opt_len]; lia|]. apply same_lengths_parallel, Tp. reflexivity.
  - apply truncate_no_err in E1. destruct E1.
  - left. apply truncate_panic_iff in E1; [lia|]. apply same_lengths_parallel, Te.
Qed.
