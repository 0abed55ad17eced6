(** Proofs about limited tokenisation inside [encode]. *)
From Verif Require Import Base ListFacts StrBytes EncodingModel EncodingSpec EncodingProofs EncodingProofs2 TruncPadModel TruncPadProofs
  NormModel PreTokModel PreTokSpec PreTokProofs PreTokProofs2 AddedModel ProcessorsModel ProcessorsSpec
  TokenizerModel TokenizerSpec TokenizerProofs TokenizerProofs2 EncodingProps PreTokProps.

(** ** Lists that agree on what a truncation keeps *)
Definition near (mx n' n : nat) : Prop := n' = n \/ mx <= n' <= n.
Definition agree {A} (d : direction) (mx : nat) (xs ys : list A) : Prop :=
  kept d mx xs = kept d mx ys /\ near mx (length xs) (length ys).

Lemma agree_refl {A} d mx (xs : list A) : agree d mx xs xs.
Proof. split; [reflexivity|left; reflexivity]. Qed.

Lemma kept_left {A} n (l : list A) : kept DLeft n l = rev (kept DRight n (rev l)).
Proof. cbn [kept]. apply skipn_rev'. Qed.

Lemma agree_left {A} mx (xs ys : list A) : agree DLeft mx xs ys <-> agree DRight mx (rev xs) (rev ys).
Proof.
  unfold agree. rewrite !rev_length, !kept_left. split; intros [H1 H2]; (split; [|exact H2]).
  - apply (f_equal (@rev A)) in H1. rewrite !rev_involutive in H1. exact H1.
  - f_equal. exact H1.
Qed.

Lemma agree_app_right {A} mx (xs1 ys1 xs2 ys2 : list A) :
  agree DRight mx xs1 ys1 -> agree DRight mx xs2 ys2 -> agree DRight mx (xs1 ++ xs2) (ys1 ++ ys2).
Proof.
  unfold agree, near. cbn [kept]. intros [K1 N1] [K2 N2]. rewrite !firstn_app, !app_length, K1. split; [|lia]. f_equal.
  destruct N1 as [->|N1].
  - rewrite <- (Nat.min_l (mx - length ys1) mx) by lia. rewrite <- !firstn_firstn, K2. reflexivity.
  - replace (mx - length xs1) with 0 by lia. replace (mx - length ys1) with 0 by lia. reflexivity.
Qed.

Lemma agree_app {A} d mx (xs1 ys1 xs2 ys2 : list A) :
  agree d mx xs1 ys1 -> agree d mx xs2 ys2 -> agree d mx (xs1 ++ xs2) (ys1 ++ ys2).
Proof.
  destruct d; [|apply agree_app_right]. rewrite !agree_left, !rev_app_distr. intros H1 H2. apply agree_app_right; assumption.
Qed.

Lemma agree_concat {A} d mx (xss yss : list (list A)) : Forall2 (agree d mx) xss yss -> agree d mx (concat xss) (concat yss).
Proof. induction 1; cbn [concat]; [apply agree_refl|apply agree_app; assumption]. Qed.

Lemma kept_kept {A} d n mx (l : list A) : n <= mx -> kept d n (kept d mx l) = kept d n l.
Proof.
  intros H. destruct d; [rewrite !kept_left, rev_involutive; f_equal|]; cbn [kept]; rewrite firstn_firstn; f_equal; lia.
Qed.

Lemma kept_map' {A B} (g : A -> B) d n l : kept d n (map g l) = map g (kept d n l).
Proof. destruct d; cbn [kept]; [rewrite map_length, skipn_map'; reflexivity|apply firstn_map]. Qed.

Lemma agree_kept {A} d mx n (xs ys : list A) : agree d mx xs ys -> n <= mx -> kept d n xs = kept d n ys.
Proof. intros [K _] H. rewrite <- (kept_kept d n mx xs), <- (kept_kept d n mx ys) by exact H. f_equal. exact K. Qed.

Lemma agree_map {A B} (g : A -> B) d mx xs ys : agree d mx xs ys -> agree d mx (map g xs) (map g ys).
Proof. intros [K N]. split; [rewrite !kept_map'; f_equal; exact K|rewrite !map_length; exact N]. Qed.

Lemma prefix_agree {A} d mx (part all : list A) : limited_prefix d mx part all -> kept d mx part = kept d mx all -> agree d mx part all.
Proof.
  intros [[k Hk] D] K. split; [exact K|]. destruct D as [->|D]; [left; reflexivity|right]. split; [exact D|].
  rewrite Hk, kept_length. lia.
Qed.

(** ** Plans of limited lengths *)
Definition flips (s : trunc_strategy) (l1 l2 m mx : nat) : Prop :=
  s = LongestFirst /\ Nat.odd m = true /\ mx <= l1 /\ mx <= l2.

Lemma plan_near l1 l1' l2 l2' m mx s k : m <= mx -> near mx l1' l1 ->
  match l2', l2 with Some n', Some n => near mx n' n /\ ~ flips s l1 n m mx | None, None => True | _, _ => False end ->
  plan l1 l2 m s = Ok k -> plan l1' l2' m s = Ok k.
Proof.
  intros Hm N1 N2. unfold plan. pose proof (halves m) as [Hd Hr].
  assert (Odd : Nat.odd m = true <-> m mod 2 = 1).
  { rewrite Nat.odd_spec. split; [intros [q Q]; lia|]. intros Q. exists (m / 2). lia. }
  destruct (Nat.eqb_spec m 0) as [E0|E0]; [exact id|]. unfold near in *.
  destruct l2 as [n|], l2' as [n'|]; try contradiction.
  - destruct N2 as [N2 NF]. unfold flips in NF. rewrite Odd in NF.
    destruct (Nat.leb_spec (l1 + n) m) as [C|C].
    { assert (l1' = l1 /\ n' = n) as [-> ->] by lia. destruct (Nat.leb_spec (l1 + n) m); [exact id|lia]. }
    destruct s.
    + assert (NF' : m mod 2 = 1 -> mx <= l1 -> mx <= n -> False) by tauto. clear NF Odd.
      unfold longest_first_lengths. set (h := m / 2) in *. set (r := m mod 2) in *. clearbody h r.
      assert (MX : forall x, (if m <? x then x else Nat.max x (m - x)) = Nat.max x (m - x)).
      { intros x. destruct (Nat.ltb_spec m x); lia. }
      rewrite !MX. clear MX. intros H. injection H as <-.
      destruct (Nat.leb_spec (l1' + n') m) as [C'|C'].
      * f_equal. destruct (Nat.ltb_spec n l1) as [D|D].
        -- destruct (Nat.ltb_spec m (n + Nat.max n (m - n))) as [D2|D2]; f_equal; lia.
        -- destruct (Nat.ltb_spec m (l1 + Nat.max l1 (m - l1))) as [D2|D2]; f_equal; lia.
      * f_equal. destruct (Nat.ltb_spec n l1) as [D|D], (Nat.ltb_spec n' l1') as [D'|D'];
          match goal with |- context [if m <? ?a then _ else _] => destruct (Nat.ltb_spec m a) end;
          match goal with |- context [if m <? ?a then _ else _] => destruct (Nat.ltb_spec m a) | |- _ => idtac end; f_equal; lia.
    + destruct (Nat.ltb_spec n m) as [D|D]; [|discriminate]. intros H. injection H as <-.
      assert (n' = n) by lia. subst n'. destruct (Nat.leb_spec (l1' + n) m) as [C'|C'].
      * repeat f_equal; lia.
      * destruct (Nat.ltb_spec n m); [reflexivity|lia].
    + destruct (Nat.ltb_spec l1 m) as [D|D]; [|discriminate]. intros H. injection H as <-.
      assert (l1' = l1) by lia. subst l1'. destruct (Nat.leb_spec (l1 + n') m) as [C'|C'].
      * repeat f_equal; lia.
      * destruct (Nat.ltb_spec l1 m); [reflexivity|lia].
  - destruct (Nat.leb_spec (l1 + 0) m) as [C|C].
    { assert (l1' = l1) by lia. subst l1'. destruct (Nat.leb_spec (l1 + 0) m); [exact id|lia]. }
    destruct s; [| |discriminate]; intros H; (destruct (Nat.leb_spec (l1' + 0) m) as [C'|C']; [|exact H]).
    + injection H as <-. repeat f_equal; lia.
    + destruct (Nat.ltb_spec 0 m); [|lia]. injection H as <-. repeat f_equal; lia.
Qed.

(** ** Limited encodings *)
Definition full (t : tokenizer) : tokenizer := set_truncation t None.
(** The views in which limited and full tables agree. *)
Definition view_ok (g : row -> row) (d : direction) (words_given : Prop) : Prop :=
  g = no_word \/ (g = (fun r => r) /\ (d = DRight \/ words_given)).

Lemma part_agree t p ty ot w s e g : tz_truncation t = Some p ->
  encode_part (full t) ty ot w s = Ok e -> view_ok g (tp_direction p) (w <> None) ->
  exists el, encode_part t ty ot w s = Ok el /\ agree (tp_direction p) (tp_max_length p) (map g (rows el)) (map g (rows e)).
Proof.
  intros Ht H G. unfold encode_part in *.
  change (extract_and_normalize (tz_space (full t)) (tz_word (full t)) (tz_added (full t)) (tz_normalizer (full t)) s)
    with (extract_and_normalize (tz_space t) (tz_word t) (tz_added t) (tz_normalizer t) s) in H.
  apply bind_ok in H. destruct H as (p1 & H1 & H). rewrite H1. cbn [bind].
  change (do_pre_tokenize (full t) p1) with (do_pre_tokenize t p1) in H. apply bind_ok in H. destruct H as (p2 & H2 & H).
  rewrite H2. cbn [bind]. unfold do_tokenize in *. apply bind_ok in H. destruct H as (p3 & H3 & H).
  unfold tokenize_in in H3. cbn [token_limit full set_truncation tz_truncation] in H3.
  change (tz_model (full t)) with (tz_model t) in H3.
  unfold token_limit. rewrite Ht.
  destruct (_ || _).
  - unfold tokenize_in. destruct (tp_direction p).
    + destruct (C24_left _ _ (tp_max_length p) _ _ _ _ _ _ H3 H) as (lim & el & L1 & L2 & L3 & L4 & L5 & _).
      rewrite L1. cbn [bind]. exists el. split; [exact L2|]. destruct G as [->|[-> [G|G]]]; [|discriminate|].
      * apply prefix_agree; assumption.
      * rewrite !map_id. split; [exact (L5 G)|]. destruct L3 as [[k Lk] D].
        assert (K1 : length (rows el) = length (map no_word (rows el))) by (rewrite map_length; reflexivity).
        assert (K2 : length (rows e) = length (map no_word (rows e))) by (rewrite map_length; reflexivity).
        rewrite K1, K2. refine (proj2 (prefix_agree DLeft _ _ _ _ L4)). split; [exists k; exact Lk|exact D].
    + destruct (C24_right _ _ (tp_max_length p) _ _ _ _ _ _ H3 H) as (lim & el & L1 & L2 & L3 & L4 & _).
      rewrite L1. cbn [bind]. exists el. split; [exact L2|]. apply agree_map, prefix_agree; assumption.
  - unfold tokenize_in. rewrite H3. cbn [bind]. exists e. split; [exact H|apply agree_refl].
Qed.

Lemma single_agree t p sq ty ot e g : tz_truncation t = Some p ->
  encode_single (full t) sq ty ot = Ok e -> view_ok g (tp_direction p) (exists ws, sq = PreTokenized ws) ->
  exists el, encode_single t sq ty ot = Ok el /\ agree (tp_direction p) (tp_max_length p) (map g (rows el)) (map g (rows e)).
Proof.
  intros Ht H G. destruct sq as [s|ws]; cbn [encode_single] in *.
  - apply part_agree; [exact Ht|exact H|]. destruct G as [G|[G1 [G2|(ws & G2)]]]; [left; exact G|right; auto|discriminate].
  - apply bind_ok in H. destruct H as (es & H1 & H2). injection H2 as <-.
    assert (Q : exists els, map_res (fun iw => encode_part t ty ot (Some (N.of_nat (fst iw))) (snd iw)) (combine (seq 0 (length ws)) ws) = Ok els /\
                Forall2 (agree (tp_direction p) (tp_max_length p)) (map (fun e => map g (rows e)) els) (map (fun e => map g (rows e)) es)).
    { revert es H1. induction (combine (seq 0 (length ws)) ws) as [|iw l IH]; intros es H1; cbn [map_res] in *.
      - injection H1 as <-. exists []. split; [reflexivity|constructor].
      - apply bind_ok in H1. destruct H1 as (e & He & H1). apply bind_ok in H1. destruct H1 as (es' & Hes & H1). injection H1 as <-.
        destruct (part_agree t p ty ot (Some (N.of_nat (fst iw))) (snd iw) e g Ht He) as (el & El & A).
        { destruct G as [G|[G1 _]]; [left; exact G|right]. split; [exact G1|right; discriminate]. }
        destruct (IH es' Hes) as (els & Els & F). rewrite El, Els. cbn [bind]. exists (el :: els). split; [reflexivity|]. cbn [map]. constructor; assumption. }
    destruct Q as (els & Els & F). rewrite Els. cbn [bind]. exists (merge false els). split; [reflexivity|].
    assert (P : forall t' l, map_res (fun iw => encode_part t' ty ot (Some (N.of_nat (fst iw))) (snd iw)) (combine (seq 0 (length ws)) ws) = Ok l -> Forall parallel l).
    { intros t' l Hl. apply map_res_ok in Hl. clear -Hl. induction Hl as [|x e l0 es0 H _ IH]; [constructor|]. constructor; [|exact IH].
      eapply encode_part_tokenised. exact H. }
    rewrite !C06_merge_list by (eapply P; eassumption).
    rewrite !concat_map, !map_map. apply agree_concat. exact F.
Qed.

Lemma agree_len (g : row -> row) d mx x y : same_lengths x -> same_lengths y -> agree d mx (map g (rows x)) (map g (rows y)) -> near mx (enc_len x) (enc_len y).
Proof. intros S1 S2 [_ N]. rewrite !map_length, !rows_length in N by assumption. exact N. Qed.

Lemma truncate_agree d mx k st e el e1 : k <= mx -> same_lengths e -> same_lengths el -> near mx (enc_len el) (enc_len e) ->
  truncate e k st d = Ok e1 ->
  exists e2, truncate el k st d = Ok e2 /\ same_lengths e2 /\
    forall g : row -> row, agree d mx (map g (rows el)) (map g (rows e)) -> map g (rows e2) = map g (rows e1).
Proof.
  intros Hk S1 S2 N H. destruct (truncate el k st d) as [e2|x|] eqn:E.
  - destruct (truncate_rows _ _ _ _ _ S2 E) as [R2 S2']. destruct (truncate_rows _ _ _ _ _ S1 H) as [R1 _].
    exists e2. split; [reflexivity|]. split; [exact S2'|]. intros g A. rewrite R1, R2, <- !kept_map'. eapply agree_kept; [exact A|exact Hk].
  - apply truncate_no_err in E. destruct E.
  - exfalso. apply truncate_panic_iff in E; [|exact S2].
    assert (X : truncate e k st d = Panic); [|congruence]. apply truncate_panic_iff; [exact S1|]. unfold near in N. lia.
Qed.

Lemma plan_near_err l1 l1' l2 l2' m mx s x : m <= mx -> near mx l1' l1 -> (s = OnlySecond -> l1' = l1) ->
  match l2', l2 with Some n', Some n => near mx n' n /\ ~ (s = OnlyFirst /\ l1 = 0) | None, None => True | _, _ => False end ->
  plan l1 l2 m s = Err x -> plan l1' l2' m s = Err x.
Proof.
  intros Hm N1 N0 N2. unfold plan. destruct (Nat.eqb_spec m 0) as [E0|E0]; [discriminate|]. unfold near in *.
  destruct l2 as [n|], l2' as [n'|]; try contradiction.
  - destruct N2 as [N2 NF]. destruct (Nat.leb_spec (l1 + n) m) as [C|C]; [discriminate|]. destruct s; [discriminate| |].
    + destruct (Nat.ltb_spec n m); [discriminate|]. intros H1. assert (l1 <> 0) by tauto.
      destruct (Nat.leb_spec (l1' + n') m); [lia|]. destruct (Nat.ltb_spec n' m); [lia|exact H1].
    + specialize (N0 eq_refl). subst l1'. destruct (Nat.ltb_spec l1 m); [discriminate|]. intros H1.
      destruct (Nat.leb_spec (l1 + n') m); [lia|exact H1].
  - destruct (Nat.leb_spec (l1 + 0) m) as [C|C]; [discriminate|]. destruct s; [discriminate| |].
    + destruct (Nat.ltb_spec 0 m); [discriminate|lia].
    + specialize (N0 eq_refl). subst l1'. destruct (Nat.leb_spec (l1 + 0) m); [lia|exact id].
Qed.

Lemma unlimited_first t p sq ot : tz_truncation t = Some p -> tp_strategy p = OnlySecond ->
  encode_single t sq 0 ot = encode_single (set_truncation t None) sq 0 ot.
Proof.
  intros Ht Hs. assert (P : forall w s, encode_part t 0 ot w s = encode_part (set_truncation t None) 0 ot w s).
  { intros w s. unfold encode_part, do_tokenize, token_limit. rewrite Ht, Hs. reflexivity. }
  destruct sq as [s|ws]; cbn [encode_single]; [apply P|].
  assert (M : forall l, map_res (fun iw => encode_part t 0 ot (Some (N.of_nat (fst iw))) (snd iw)) l =
                        map_res (fun iw : nat * str => encode_part (set_truncation t None) 0 ot (Some (N.of_nat (fst iw))) (snd iw)) l).
  { induction l as [|iw l IH]; [reflexivity|]. cbn [map_res]. rewrite P, IH. reflexivity. }
  rewrite M. reflexivity.
Qed.
