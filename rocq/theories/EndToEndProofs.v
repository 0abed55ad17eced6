(** Proofs about whole encodings. *)
From Verif Require Import Base ListFacts StrBytes EncodingModel EncodingSpec EncodingProofs EncodingProofs2 TruncPadModel TruncPadProofs
  NormModel NormSpec NormProofs PreTokModel PreTokSpec PreTokProofs PreTokProofs2 AddedModel AddedSpec AddedProofs AddedProofs2 AddedProofs3 AddedProofs4
  ProcessorsModel ProcessorsSpec ProcessorsProofs ProcessorsProofs4 ProcessorsProofs5
  TokenizerModel TokenizerSpec TokenizerProofs TokenizerProofs2 EncodingProps AddedProps PreTokModel PreTokSpec PreTokProps EndToEndSpec.

(** ** Tokens that pieces carry *)
Definition fits (sp : split) : Prop :=
  match sp_tokens sp with Some ts => Forall (token_fits (sp_norm sp)) ts | None => True end.

Lemma split_loop_in {E} (f : nat -> nstring -> res E (list split)) : forall l i l' sp,
  split_loop f i l = Ok l' -> In sp l' ->
  In sp l \/ exists j ns new, f j ns = Ok new /\ In sp new /\ n_normalized (sp_norm sp) <> [].
Proof.
  induction l as [|x l IH]; intros i l' sp H Hin; cbn [split_loop] in H; [injection H as <-; destruct Hin|].
  destruct (sp_tokens x).
  - apply bind_ok in H. destruct H as (r & E1 & H). injection H as <-. destruct Hin as [<-|Hin]; [left; left; reflexivity|].
    destruct (IH _ _ _ E1 Hin) as [G|G]; [left; right; exact G|right; exact G].
  - apply bind_ok in H. destruct H as (new & E0 & H). apply bind_ok in H. destruct H as (r & E1 & H). injection H as <-.
    apply in_app_or in Hin. destruct Hin as [Hin|Hin].
    + unfold keep_nonempty in Hin. apply filter_In in Hin. destruct Hin as [Hin Hn]. right. exists i, (sp_norm x), new.
      split; [exact E0|]. split; [exact Hin|]. intros Z. rewrite Z in Hn. discriminate.
    + destruct (IH _ _ _ E1 Hin) as [G|G]; [left; right; exact G|right; exact G].
Qed.

Lemma split_with_indices_fits a b av trie ns new sp :
  split_with_indices a b av trie ns = Ok new -> In sp new -> n_normalized (sp_norm sp) <> [] -> fits sp.
Proof.
  intros H Hin Hn. unfold split_with_indices in H. apply bind_ok in H. destruct H as (ms & _ & H). apply map_res_ok in H.
  induction H as [|m x ms xs H _ IH]; [destruct Hin|]. destruct Hin as [->|Hin]; [|auto].
  unfold token_split in H. destruct (n_slice ns _) as [sl| |]; try discriminate. injection H as <-. unfold fits. cbn [sp_tokens sp_norm] in *.
  destruct (fst m); [|exact Logic.I]. constructor; [|constructor]. unfold token_fits, n_len. cbn [t_offsets fst snd].
  destruct (n_normalized sl) as [|c s]; [congruence|]. cbn [blen]. pose proof (len_utf8_pos c). lia.
Qed.

Lemma extract_fits a b av norm s pt : extract_and_normalize a b av norm s = Ok pt -> Forall fits (pt_splits pt).
Proof.
  unfold extract_and_normalize. intros H. apply bind_ok in H. destruct H as (p1 & H1 & H2).
  unfold pt_split in *. apply bind_ok in H1. destruct H1 as (l1 & H1 & E1). injection E1 as <-. cbn [pt_splits] in *.
  apply bind_ok in H2. destruct H2 as (l2 & H2 & E2). injection E2 as <-. cbn [pt_splits].
  assert (F1 : Forall fits l1).
  { rewrite Forall_forall. intros sp Hin. destruct (split_loop_in _ _ _ _ _ H1 Hin) as [G|(j & ns & new & G1 & G2 & G3)].
    - destruct G as [<-|[]]. exact Logic.I.
    - eapply split_with_indices_fits; eauto. }
  rewrite Forall_forall in *. intros sp Hin. destruct (split_loop_in _ _ _ _ _ H2 Hin) as [G|(j & ns & new & G1 & G2 & G3)]; [auto|].
  eapply split_with_indices_fits; eauto.
Qed.

(** What tokenisation, limited or not, makes of a piece. *)
Definition tokenised_from (g : str -> res unit (list token)) (l : list split) (sp : split) : Prop :=
  exists sp0, In sp0 l /\ sp_norm sp = sp_norm sp0 /\ has_tokens sp = true /\
    (sp = sp0 \/ exists ts, g (n_normalized (sp_norm sp0)) = Ok ts /\ sp_tokens sp = Some ts).

Lemma tokenised_from_tail g x l sp : tokenised_from g l sp -> tokenised_from g (x :: l) sp.
Proof. intros (sp0 & H & G). exists sp0. split; [right; exact H|exact G]. Qed.

Lemma limit_loop_from g mx : forall l total l', limit_loop (fun ns => g (n_normalized ns)) mx total l = Ok l' ->
  Forall (tokenised_from g l) l'.
Proof.
  induction l as [|x l IH]; intros total l' H; cbn [limit_loop] in H; [injection H as <-; constructor|].
  destruct (sp_tokens x) as [ts|] eqn:Et.
  - apply bind_ok in H. destruct H as (r & E1 & H). injection H as <-. constructor.
    + exists x. split; [left; reflexivity|]. split; [reflexivity|]. split; [unfold has_tokens; rewrite Et; reflexivity|left; reflexivity].
    + eapply Forall_impl; [|exact (IH _ _ E1)]. intros sp. apply tokenised_from_tail.
  - apply bind_ok in H. destruct H as (ts & E0 & H).
    assert (X : tokenised_from g (x :: l) (mkSplit (sp_norm x) (Some ts))).
    { exists x. split; [left; reflexivity|]. split; [reflexivity|]. split; [reflexivity|]. right. exists ts. auto. }
    destruct (mx <=? total + length ts); [injection H as <-; constructor; [exact X|constructor]|].
    apply bind_ok in H. destruct H as (r & E1 & H). injection H as <-. constructor; [exact X|].
    eapply Forall_impl; [|exact (IH _ _ E1)]. intros sp. apply tokenised_from_tail.
Qed.

Lemma tokenize_all_from g : forall l l', map_res (tokenize_one (fun ns => g (n_normalized ns))) l = Ok l' ->
  Forall (tokenised_from g l) l'.
Proof.
  intros l l' H. apply map_res_ok in H. induction H as [|x y l l' H _ IH]; [constructor|]. constructor.
  - unfold tokenize_one in H. destruct (sp_tokens x) as [ts|] eqn:Et.
    + injection H as <-. exists x. split; [left; reflexivity|]. split; [reflexivity|]. split; [unfold has_tokens; rewrite Et; reflexivity|left; reflexivity].
    + apply bind_ok in H. destruct H as (ts & E0 & H). injection H as <-. exists x. split; [left; reflexivity|]. split; [reflexivity|].
      split; [reflexivity|]. right. exists ts. auto.
  - eapply Forall_impl; [|exact IH]. intros sp. apply tokenised_from_tail.
Qed.

Lemma tokenize_in_from t lim pt pt' : tokenize_in t lim pt = Ok pt' ->
  pt_original pt' = pt_original pt /\ Forall (tokenised_from (tz_model t) (pt_splits pt)) (pt_splits pt').
Proof.
  unfold tokenize_in. destruct lim as [[mx d]|].
  - unfold pt_tokenize_with_limit. destruct d; intros H; apply bind_ok in H; destruct H as (l & E & H); injection H as <-; cbn [pt_original pt_splits]; (split; [reflexivity|]).
    + apply limit_loop_from in E. apply Forall_rev. eapply Forall_impl; [|exact E]. intros sp (sp0 & Hin & G). exists sp0. split; [apply in_rev, Hin|exact G].
    + exact (limit_loop_from _ _ _ _ _ E).
  - unfold pt_tokenize. intros H; apply bind_ok in H; destruct H as (l & E & H); injection H as <-. cbn [pt_original pt_splits]. split; [reflexivity|].
    exact (tokenize_all_from _ _ _ E).
Qed.

(** ** The pieces at the moment of building the encoding *)
Lemma all_tokens_in : forall l i0 i ns t, In (i, ns, t) (all_tokens i0 l) ->
  exists sp ts, In sp l /\ ns = sp_norm sp /\ sp_tokens sp = Some ts /\ In t ts.
Proof.
  induction l as [|sp l IH]; intros i0 i ns t H; cbn [all_tokens] in H; [destruct H|]. apply in_app_or in H. destruct H as [H|H].
  - destruct (sp_tokens sp) as [ts|] eqn:Et; [|destruct H]. apply in_map_iff in H. destruct H as (t' & E & Hin). injection E as <- <- <-.
    exists sp, ts. split; [left; reflexivity|]. auto.
  - destruct (IH _ _ _ _ H) as (sp' & ts & G & G'). exists sp', ts. split; [right; exact G|exact G'].
Qed.

Lemma sound_tries t : sound_added (tz_space t) (tz_added t) ->
  safe_trie (tz_space t) (tz_added t) (av_trie (tz_added t)) /\ safe_trie (tz_space t) (tz_added t) (av_ntrie (tz_added t)).
Proof.
  intros (build & m & NF & offered & taken & MO & D & H & SS).
  pose proof (tries_known _ _ (tries_history _ _ _ _ _ _ MO D H)) as [K1 K2].
  split; intros pats P; split; auto.
Qed.

Lemma pieces_ready t s lim p1 p2 p3 : sound t ->
  extract_and_normalize (tz_space t) (tz_word t) (tz_added t) (tz_normalizer t) s = Ok p1 ->
  do_pre_tokenize t p1 = Ok p2 -> tokenize_in t lim p2 = Ok p3 ->
  pt_original p3 = s /\ ready p3.
Proof.
  intros (SA & SN & SP & SM) H1 H2 H3. destruct (sound_tries t SA) as [S1 S2].
  destruct (extract_inside (tz_space t) (tz_word t) (tz_added t) (tz_normalizer t) s S1 S2 SN) as (p1' & E1 & I1).
  rewrite H1 in E1. injection E1 as <-. pose proof (extract_fits _ _ _ _ _ _ H1) as F1.
  assert (I2 : inside_history s p2 /\ Forall fits (pt_splits p2)).
  { unfold do_pre_tokenize in H2. destruct (tz_pre_tokenizer t) as [f|]; [|injection H2 as <-; auto].
    destruct (SP f eq_refl s p1 p2 I1 H2) as [G1 G2]. split; [exact G1|]. rewrite Forall_forall in *. intros sp Hin.
    destruct (G2 sp Hin) as [N|N]; [unfold fits; rewrite N; exact Logic.I|auto]. }
  destruct I2 as [I2 F2]. destruct (C21_inside_any_history _ _ I2) as [O2 L2].
  destruct (tokenize_in_from _ _ _ _ H3) as [O3 L3]. split; [congruence|]. split.
  - rewrite Forall_forall in *. intros sp Hin. destruct (L3 sp Hin) as (sp0 & Hin0 & EN & T & _).
    destruct (L2 sp0 Hin0) as (A & L & _). rewrite EN, O3, O2. auto.
  - intros i ns tk Hin. destruct (all_tokens_in _ _ _ _ _ Hin) as (sp & ts & Hsp & -> & Et & Ht).
    rewrite Forall_forall in L3, F2. destruct (L3 sp Hsp) as (sp0 & Hin0 & EN & _ & D). rewrite EN.
    destruct D as [->|(ts' & G & Et')].
    + pose proof (F2 sp0 Hin0) as F. unfold fits in F. rewrite Et in F. rewrite Forall_forall in F. auto.
    + rewrite Et in Et'. injection Et' as <-. apply SM in G. rewrite Forall_forall in G. exact (G tk Ht).
Qed.

Lemma encode_part_steps t ty ot w s e : encode_part t ty ot w s = Ok e ->
  exists p1 p2 p3, extract_and_normalize (tz_space t) (tz_word t) (tz_added t) (tz_normalizer t) s = Ok p1 /\
    do_pre_tokenize t p1 = Ok p2 /\ tokenize_in t (token_limit t ty) p2 = Ok p3 /\ into_encoding p3 w ty ot = Ok e.
Proof.
  unfold encode_part. intros H. apply bind_ok in H. destruct H as (p1 & H1 & H). apply bind_ok in H. destruct H as (p2 & H2 & H).
  unfold do_tokenize in H. apply bind_ok in H. destruct H as (p3 & H3 & H). exists p1, p2, p3. auto.
Qed.

Lemma part_tokens t ty w s e : sound t -> encode_part t ty OByte w s = Ok e -> Forall (token_of s ty) (rows e).
Proof.
  intros SO H. apply encode_part_steps in H. destruct H as (p1 & p2 & p3 & H1 & H2 & H3 & H4).
  destruct (pieces_ready t s _ p1 p2 p3 SO H1 H2 H3) as [O3 R].
  destruct (C22_rows p3 w ty R) as (e' & E' & _ & _ & _ & F). rewrite H4 in E'. injection E' as <-. rewrite O3 in F.
  assert (L : forall i ns tk, In (i, ns, tk) (all_tokens 0 (pt_splits p3)) -> snd (offsets_original ns) <= blen s).
  { intros i ns tk Hin. destruct (all_tokens_in _ _ _ _ _ Hin) as (sp & ts & Hsp & -> & _). destruct R as [R _]. rewrite Forall_forall in R.
    destruct (R sp Hsp) as (A & Lo & _). destruct (located_shift _ _ Lo) as (u & v & E & Hu). rewrite O3 in E. unfold offsets_original. cbn [snd].
    rewrite E, !blen_app. unfold n_len_original in *. lia. }
  induction F as [|[[i ns] tk] r l rs (G1 & G2) _ IH]; [constructor|]. constructor.
  - destruct G1 as (_ & _ & Ety & Ew & Esp & Eat). destruct G2 as (_ & B1 & B2 & B3 & B4).
    pose proof (L i ns tk (or_introl eq_refl)). unfold token_of. rewrite Ew. repeat split; auto; try lia. discriminate.
  - apply IH. intros i' ns' tk' Hin. apply (L i' ns' tk'). right. exact Hin.
Qed.

(** ** Words *)
Definition put_word (n : N) (r : enc_row) : enc_row := let '(a, b, c, _, e) := r in (a, b, c, Some n, e).

Lemma encoding_rows_put orig ch ty n : forall l i j,
  encoding_rows orig ch (Some n) ty j l = let! r := encoding_rows orig ch None ty i l in Ok (map (put_word n) r).
Proof.
  induction l as [|sp l IH]; intros i j; cbn [encoding_rows]; [reflexivity|].
  destruct (sp_tokens sp) as [ts|]; cbn [of_option bind]; [|reflexivity].
  assert (M : map_res (token_row orig ch n ty (sp_norm sp)) ts
              = let! r := map_res (token_row orig ch (N.of_nat i) ty (sp_norm sp)) ts in Ok (map (put_word n) r)).
  { induction ts as [|tk ts IHt]; cbn [map_res]; [reflexivity|]. rewrite IHt. clear IHt.
    destruct (map_res (token_row orig ch (N.of_nat i) ty (sp_norm sp)) ts); unfold token_row;
    destruct (token_offsets orig ch (sp_norm sp) tk); reflexivity. }
  rewrite M. destruct (map_res (token_row orig ch (N.of_nat i) ty (sp_norm sp)) ts) as [r1|?|]; cbn [bind]; try reflexivity.
  rewrite (IH (i + 1) (j + 1)). destruct (encoding_rows orig ch None ty (i + 1) l); cbn [bind]; try reflexivity. rewrite map_app. reflexivity.
Qed.

(** The encoding of a text as a word is the encoding of the text, renumbered. *)
Lemma into_encoding_word pt n ty ot x : into_encoding pt None ty ot = Ok x ->
  exists y, into_encoding pt (Some n) ty ot = Ok y /\ rows y = map (in_word ot n) (rows x).
Proof.
  unfold into_encoding. destruct (is_nil (pt_splits pt)); [intros H; injection H as <-; eexists; split; reflexivity|].
  destruct (negb _); [discriminate|]. destruct ot.
  - cbn [bind]. rewrite (encoding_rows_put _ _ _ n _ 0 0). destruct (encoding_rows _ _ None _ _ _) as [r|?|]; cbn [bind]; try discriminate.
    intros H. injection H as <-. eexists. split; [reflexivity|]. rewrite !rows_from_rows, !map_map. apply map_ext. intros [[[[a b] c] d] e]. reflexivity.
  - cbn [bind]. rewrite (encoding_rows_put _ _ _ n _ 0 0). destruct (encoding_rows _ _ None _ _ _) as [r|?|]; cbn [bind]; try discriminate.
    intros H. injection H as <-. eexists. split; [reflexivity|]. rewrite !rows_from_rows, !map_map. apply map_ext. intros [[[[a b] c] d] e]. reflexivity.
  - intros H. injection H as <-. eexists. split; [reflexivity|]. cbn [in_word]. rewrite map_id. reflexivity.
Qed.

Lemma into_encoding_unword pt n ty ot y : into_encoding pt (Some n) ty ot = Ok y ->
  exists x, into_encoding pt None ty ot = Ok x.
Proof.
  unfold into_encoding. destruct (is_nil (pt_splits pt)); [eauto|].
  destruct (negb _); [discriminate|]. destruct ot; cbn [bind]; eauto;
  rewrite (encoding_rows_put _ _ _ n _ 0 0); destruct (encoding_rows _ _ None _ _ _) as [r|?|]; cbn [bind]; try discriminate; eauto.
Qed.

Lemma encode_part_word t ty ot n s y : encode_part t ty ot (Some n) s = Ok y <->
  exists x, encode_part t ty ot None s = Ok x /\ encode_part t ty ot (Some n) s = Ok y /\ rows y = map (in_word ot n) (rows x).
Proof.
  split; [|intros (x & _ & H & _); exact H]. intros H. pose proof (encode_part_steps _ _ _ _ _ _ H) as (p1 & p2 & p3 & H1 & H2 & H3 & H4).
  destruct (into_encoding_unword _ _ _ _ _ H4) as (x & Hx). exists x. split; [|split; [exact H|]].
  - unfold encode_part. rewrite H1. cbn [bind]. rewrite H2. cbn [bind]. unfold do_tokenize. rewrite H3. exact Hx.
  - destruct (into_encoding_word _ n _ _ _ Hx) as (y' & E & R). congruence.
Qed.

Lemma encode_part_word_some t ty ot n s x : encode_part t ty ot None s = Ok x ->
  exists y, encode_part t ty ot (Some n) s = Ok y.
Proof.
  intros H. pose proof (encode_part_steps _ _ _ _ _ _ H) as (p1 & p2 & p3 & H1 & H2 & H3 & H4).
  destruct (into_encoding_word _ n _ _ _ H4) as (y & E & _). exists y.
  unfold encode_part. rewrite H1. cbn [bind]. rewrite H2. cbn [bind]. unfold do_tokenize. rewrite H3. exact E.
Qed.

(** ** Tokenised encodings are fresh, before and after truncation *)
Lemma into_encoding_plain pt w s ot e : ot <> ONone -> into_encoding pt w (N.of_nat s) ot = Ok e -> plain s e.
Proof.
  intros Hot H. pose proof (into_encoding_tokenised _ _ _ _ _ H) as [P _].
  split; [apply same_lengths_parallel, P|].
  destruct (forallb has_tokens (pt_splits pt)) eqn:Fb.
  - rewrite into_encoding_build in H by exact Fb. apply bind_ok in H. destruct H as (r & Hr & H). injection H as <-.
    split; [reflexivity|]. rewrite rows_from_rows, Forall_map.
    assert (G : forall ch l i r, encoding_rows (pt_original pt) ch w (N.of_nat s) i l = Ok r -> Forall (fun x => snd x = N.of_nat s) r).
    { intros ch. induction l as [|sp l IH]; intros i r0 H0; cbn [encoding_rows] in H0; [injection H0 as <-; constructor|].
      apply bind_ok in H0. destruct H0 as (ts & _ & H0). apply bind_ok in H0. destruct H0 as (r1 & E1 & H0). apply bind_ok in H0. destruct H0 as (r2 & E2 & H0).
      injection H0 as <-. apply Forall_app. split; [|exact (IH _ _ E2)]. apply map_res_ok in E1. clear -E1.
      induction E1 as [|a b l l' E _ IH]; [constructor|]. constructor; [|exact IH]. unfold token_row in E. apply bind_ok in E. destruct E as (o & _ & E). injection E as <-. reflexivity. }
    assert (G' : Forall (fun x => snd x = N.of_nat s) r) by (destruct ot; [eapply G; exact Hr|eapply G; exact Hr|congruence]).
    eapply Forall_impl; [|exact G']. intros [[[[a b] c] d] x]. cbn. auto.
  - exfalso. unfold into_encoding in H. rewrite Fb in H. destruct (pt_splits pt); discriminate.
Qed.

Lemma merge_plain s : forall es acc, plain s acc -> overflowing acc = [] -> Forall (fun e => plain s e /\ overflowing e = []) es ->
  plain s (fold_left (merge_with false) es acc) /\ overflowing (fold_left (merge_with false) es acc) = [].
Proof.
  induction es as [|e es IH]; intros acc Pa Oa F; cbn [fold_left]; [auto|].
  inversion F as [|x l [Pe Oe] F']; subst. apply IH; [| |exact F'].
  - destruct Pa as (A1 & A2 & A3), Pe as (E1 & E2 & E3). split; [|split].
    + apply same_lengths_parallel, merge_with_parallel; (constructor; [assumption|rewrite ?Oa, ?Oe; constructor]).
    + rewrite merge_with_unfold. cbn [merge_main sequence_ranges]. rewrite A2, E2. reflexivity.
    + rewrite rows_merge_with by exact A1. unfold juxtapose. apply Forall_app. split; [exact A3|exact E3].
  - rewrite overflowing_merge_with, Oa, Oe. reflexivity.
Qed.

Lemma encode_single_plain t sq s ot e : ot <> ONone -> encode_single t sq (N.of_nat s) ot = Ok e -> plain s e /\ overflowing e = [].
Proof.
  intros Hot H. split; [|exact (proj2 (encode_single_tokenised _ _ _ _ _ H))].
  assert (G : forall w x y, encode_part t (N.of_nat s) ot w x = Ok y -> plain s y /\ overflowing y = []).
  { intros w x y Hy. pose proof (encode_part_tokenised _ _ _ _ _ _ Hy) as [_ O]. split; [|exact O].
    apply encode_part_steps in Hy. destruct Hy as (p1 & p2 & p3 & _ & _ & _ & Hy). eapply into_encoding_plain; eauto. }
  destruct sq as [x|ws]; cbn [encode_single] in H; [exact (proj1 (G _ _ _ H))|].
  apply bind_ok in H. destruct H as (es & H1 & H2). injection H2 as <-. apply map_res_ok in H1.
  refine (proj1 (merge_plain s es empty_enc _ eq_refl _)).
  - split; [repeat split|]. split; [reflexivity|constructor].
  - clear -H1 G. induction H1 as [|x y l l' H _ IH]; constructor; [|exact IH]. eapply G. exact H.
Qed.

Lemma tiles_in {A} max stride (l : list A) ws : tiles max stride l ws -> forall w x, In w ws -> In x w -> In x l.
Proof.
  intros ((w0 & rest & -> & E0 & EC) & T2 & T3).
  assert (G : forall i w, nth_error (w0 :: rest) i = Some w -> forall x, In x w -> In x l).
  { induction i as [|i IH]; intros w Hw x Hx.
    - cbn in Hw. injection Hw as <-. rewrite <- EC. apply in_or_app. left. exact Hx.
    - destruct (nth_error (w0 :: rest) i) as [v|] eqn:Ev.
      + destruct (T3 i v w Ev Hw) as [E1 _]. rewrite <- (firstn_skipn stride w) in Hx. apply in_app_or in Hx. destruct Hx as [Hx|Hx].
        * rewrite <- E1 in Hx. apply (IH v eq_refl). rewrite <- (firstn_skipn (max - stride) v). apply in_or_app. right. exact Hx.
        * rewrite <- EC. apply in_or_app. right. apply in_concat. exists (skipn stride w). split; [|exact Hx].
          apply in_map. cbn in Hw. eapply nth_error_In. exact Hw.
      + exfalso. apply nth_error_None in Ev. assert (nth_error (w0 :: rest) (S i) <> None) by congruence.
        apply nth_error_Some in H. lia. }
  intros w x Hw. apply In_nth_error in Hw. destruct Hw as (i & Hi). eapply G. exact Hi.
Qed.

Lemma truncate_fresh s e n st d e' : plain s e -> overflowing e = [] -> truncate e n st d = Ok e' -> fresh s e'.
Proof.
  intros (P1 & P2 & P3) O H. destruct (Nat.le_gt_cases (enc_len e) n) as [L|L].
  { rewrite truncate_fits in H by exact L. injection H as <-. split; [split; auto|]. rewrite O. constructor. }
  destruct (Nat.eq_dec n 0) as [->|Hn].
  { destruct (C01_truncate_zero e st d L) as (e2 & E2 & R2 & O2). unfold truncate in H. unfold enc_len in L.
    destruct (Nat.leb_spec (length (ids e)) 0); [lia|]. cbn [Nat.eqb] in H. injection H as <-. split.
    - split; [repeat split|]. split; [reflexivity|constructor].
    - constructor; [|constructor]. split; [split; auto|exact O]. }
  assert (Hst : st < n).
  { destruct (Nat.lt_ge_cases st n) as [G|G]; [exact G|]. assert (X : truncate e n st d = Panic) by (apply truncate_panic_iff; auto; lia). congruence. }
  destruct (truncate_main e n st d P1 ltac:(lia) L Hst) as (e2 & E2 & S2 & R2 & F2 & T2). rewrite H in E2. injection E2 as <-.
  assert (I : forall w x, In w (rows e' :: map rows (overflowing e')) -> In x w -> In x (rows e)).
  { destruct d.
    - intros w x Hw Hx. apply in_rev. refine (tiles_in _ _ _ _ T2 (rev w) x _ _); [apply in_map, Hw|apply -> in_rev; exact Hx].
    - intros w x. apply (tiles_in _ _ _ _ T2). }
  rewrite Forall_forall in P3. split.
  - split; [exact S2|]. split; [exact R2|]. rewrite Forall_forall. intros x Hx. apply P3. eapply I; [left; reflexivity|exact Hx].
  - rewrite Forall_forall in *. intros o Ho. destruct (F2 o Ho) as (O1 & O2 & O3). split; [|exact O2]. split; [exact O1|]. split; [exact O3|].
    rewrite Forall_forall. intros x Hx. apply P3. eapply I; [right; apply in_map; exact Ho|exact Hx].
Qed.

Lemma sequences_fresh t ot input e pair add e' pair' : ot <> ONone ->
  sequences t ot input = Ok (e, pair) -> truncate_step t e pair add = Ok (e', pair') ->
  fresh 0 e' /\ opt_fresh pair' /\ is_some pair' = is_dual input.
Proof.
  intros Hot H1 H2.
  assert (P : (plain 0 e /\ overflowing e = []) /\ match pair with Some o => plain 1 o /\ overflowing o = [] | None => True end /\ is_some pair = is_dual input).
  { destruct input as [a|a b]; cbn [sequences] in H1; apply bind_ok in H1; destruct H1 as (x & Hx & H1).
    - injection H1 as <- <-. split; [exact (encode_single_plain t a 0 ot x Hot Hx)|]. split; [exact Logic.I|reflexivity].
    - apply bind_ok in H1. destruct H1 as (y & Hy & H1). injection H1 as <- <-. split; [exact (encode_single_plain t a 0 ot x Hot Hx)|].
      split; [exact (encode_single_plain t b 1 ot y Hot Hy)|reflexivity]. }
  destruct P as ([Pe Oe] & Pp & Hd).
  destruct (tz_truncation t) as [p|] eqn:Et.
  - rewrite (truncate_step_eq t p) in H2 by exact Et. destruct (_ <=? _); [|discriminate]. apply bind_trunc_ok in H2.
    rewrite truncate_plan in H2. apply bind_ok in H2. destruct H2 as ([k1 k2] & _ & H2). apply bind_ok in H2. destruct H2 as (e1 & E1 & H2).
    apply lift_res_ok in E1. destruct pair as [o|].
    + apply bind_ok in H2. destruct H2 as (o1 & E2 & H2). apply lift_res_ok in E2. injection H2 as <- <-.
      split; [eapply truncate_fresh; eauto|]. split; [|exact Hd]. destruct Pp. eapply truncate_fresh; eauto.
    + injection H2 as <- <-. split; [eapply truncate_fresh; eauto|]. split; [exact Logic.I|exact Hd].
  - unfold truncate_step in H2. rewrite Et in H2. injection H2 as <- <-.
    split; [split; [exact Pe|rewrite Oe; constructor]|]. split; [|exact Hd]. destruct pair as [o|]; [|exact Logic.I].
    destruct Pp as [Po Oo]. split; [exact Po|rewrite Oo; constructor].
Qed.

(** ** Passes that cut *)
Lemma cut_stays_inside {E} P (f : nat -> nstring -> res E (list split)) i ns new sp :
  only_cuts P f -> aligned ns -> f i ns = Ok new -> In sp new -> n_normalized (sp_norm sp) <> [] -> stays_inside ns (sp_norm sp).
Proof.
  intros C A H Hin Hne. destruct (C i ns new A H) as (marks & _ & _ & F). clear H.
  apply (in_map sp_norm) in Hin. induction F as [|t n ts ns' [Hp Ha] _ IH]; [destruct Hin|]. destruct Hin as [Hin|Hin]; [|auto].
  rewrite <- Hin in *. clear Hin. split; [exact Ha|]. destruct t as [|[c a] r]; [destruct Hp as [Hp _]; congruence|].
  destruct Hp as (u & v & H1 & _ & _ & H4 & _). exists u, v. auto.
Qed.
