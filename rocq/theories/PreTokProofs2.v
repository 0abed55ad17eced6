(** Lemmas behind C22-C24: encodings, character offsets, token limits. *)
From Verif Require Import Base ListFacts StrBytes EncodingModel EncodingSpec EncodingProofs EncodingProofs2
  TruncPadProofs NormModel NormSpec NormProofs NormProofs6 PreTokModel PreTokSpec PreTokProofs.

(** ** Byte to char conversion *)
Lemma assoc_get_app k m1 m2 : assoc_get k (m1 ++ m2) = match assoc_get k m1 with Some v => Some v | None => assoc_get k m2 end.
Proof. induction m1 as [|[k' v] m1 IH]; [reflexivity|]. cbn [app assoc_get]. destruct (k =? k'); [reflexivity|exact IH]. Qed.

Lemma assoc_get_block k b i l : forall a,
  assoc_get k (map (fun n => (b + n, i)) (seq a l)) = if (b + a <=? k) && (k <? b + a + l) then Some i else None.
Proof.
  induction l as [|l IH]; intros a; cbn [seq map assoc_get].
  - replace ((b + a <=? k) && _) with false by lia. reflexivity.
  - rewrite IH. destruct (Nat.eqb_spec k (b + a)) as [->|H].
    + replace ((b + a <=? b + a) && _) with true by lia. reflexivity.
    + destruct ((b + S a <=? k) && (k <? b + S a + l)) eqn:E1; destruct ((b + a <=? k) && (k <? b + a + S l)) eqn:E2; try reflexivity; lia.
Qed.

Lemma converter_hit p : forall b i c q j, j < len_utf8 c ->
  assoc_get (b + blen p + j) (converter_entries b i (p ++ c :: q)) = Some (i + length p).
Proof.
  induction p as [|d p IH]; intros b i c q j H; cbn [app converter_entries blen length].
  - rewrite assoc_get_app, assoc_get_block. replace ((b + 0 <=? b + 0 + j) && _) with true by lia. f_equal. lia.
  - rewrite assoc_get_app, assoc_get_block. replace ((b + 0 <=? _) && _) with false by lia.
    replace (b + (len_utf8 d + blen p) + j) with (b + len_utf8 d + blen p + j) by lia. rewrite IH by exact H. f_equal. lia.
Qed.

Lemma converter_miss s : forall b i k, b + blen s <= k -> assoc_get k (converter_entries b i s) = None.
Proof.
  induction s as [|d s IH]; intros b i k H; cbn [converter_entries blen] in *; [reflexivity|].
  rewrite assoc_get_app, assoc_get_block. replace ((b + 0 <=? k) && _) with false by lia. apply IH. lia.
Qed.

Lemma convert_chars_ok p m q : (m <> [] \/ q <> []) ->
  convert_chars (p ++ m ++ q) (blen p, blen p + blen m) = Ok (Some (length p, length p + length m)).
Proof.
  intros H. unfold convert_chars. cbn [fst snd]. destruct m as [|c m _] using rev_ind.
  - destruct q as [|c q]; [destruct H; congruence|]. cbn [app blen length].
    pose proof (len_utf8_pos c) as L.
    pose proof (converter_hit p 0 0 c q 0 ltac:(lia)) as E. rewrite !Nat.add_0_r in *. cbn [Nat.add] in E. rewrite E. reflexivity.
  - clear H.
    assert (E1 : assoc_get (blen p) (converter_entries 0 0 (p ++ (m ++ [c]) ++ q)) = Some (length p)).
    { destruct m as [|d m].
      - pose proof (len_utf8_pos c). pose proof (converter_hit p 0 0 c q 0 ltac:(lia)) as E. rewrite Nat.add_0_r in E. exact E.
      - pose proof (len_utf8_pos d). pose proof (converter_hit p 0 0 d ((m ++ [c]) ++ q) 0 ltac:(lia)) as E. rewrite Nat.add_0_r in E. exact E. }
    rewrite E1. rewrite blen_app, app_length. cbn [blen length]. rewrite Nat.add_0_r.
    pose proof (len_utf8_pos c) as L. destruct q as [|d q].
    + rewrite (converter_miss _ 0 0 (blen p + _)).
      2: { rewrite !blen_app. cbn [blen]. lia. }
      replace (blen p + (blen m + len_utf8 c) =? 0) with false by lia.
      rewrite app_nil_r. pose proof (converter_hit (p ++ m) 0 0 c [] (len_utf8 c - 1) ltac:(lia)) as E.
      rewrite blen_app, app_length, <- app_assoc in E. cbn [Nat.add] in E.
      replace (blen p + (blen m + len_utf8 c) - 1) with (blen p + blen m + (len_utf8 c - 1)) by lia. rewrite E.
      f_equal. f_equal. f_equal. lia.
    + pose proof (len_utf8_pos d). pose proof (converter_hit (p ++ m ++ [c]) 0 0 d q 0 ltac:(lia)) as E.
      rewrite !blen_app, !app_length in E. cbn [blen Nat.add length] in E. rewrite !Nat.add_0_r in E.
      replace ((p ++ m ++ [c]) ++ d :: q) with (p ++ (m ++ [c]) ++ d :: q) in E by (rewrite <- !app_assoc; reflexivity).
      rewrite E. reflexivity.
Qed.

Lemma convert_chars_end s b : convert_chars s (blen s, b) = Ok None.
Proof. unfold convert_chars. cbn [fst]. rewrite converter_miss by lia. reflexivity. Qed.

Lemma char_pos_pair s b1 b2 i1 i2 : char_pos s b1 i1 -> char_pos s b2 i2 -> b1 <= b2 ->
  exists p m q, s = p ++ m ++ q /\ b1 = blen p /\ b2 = blen p + blen m /\ i1 = length p /\ i2 = length p + length m.
Proof.
  intros (p1 & q1 & -> & <- & <-) (p2 & q2 & E & <- & <-) H.
  apply blen_prefix_cmp in E; [|exact H]. destruct E as (x & -> & ->).
  exists p1, x, q2. rewrite blen_app, app_length. repeat split; reflexivity.
Qed.

Lemma convert_chars_reported s b1 b2 i1 i2 :
  char_pos s b1 i1 -> char_pos s b2 i2 -> b1 <= b2 -> (b1 < blen s \/ s = []) ->
  exists c, convert_chars s (b1, b2) = Ok c /\ match c with Some o => o | None => (b1, b2) end = (i1, i2).
Proof.
  intros H1 H2 H H3. destruct (char_pos_pair _ _ _ _ _ H1 H2 H) as (p & m & q & -> & -> & -> & -> & ->).
  destruct H3 as [H3|H3].
  - exists (Some (length p, length p + length m)). split; [|reflexivity]. apply convert_chars_ok.
    destruct m; [|left; discriminate]. destruct q; [|right; discriminate]. rewrite !app_nil_r in H3. lia.
  - apply app_eq_nil in H3. destruct H3 as [-> H3]. apply app_eq_nil in H3. destruct H3 as [-> ->].
    exists None. split; reflexivity.
Qed.

Lemma char_pos_boundary s b : is_boundary s b = true -> exists i, char_pos s b i.
Proof. intros H. apply is_boundary_spec in H. destruct H as (p & q & -> & ->). exists (length p), p, q. auto. Qed.

(** ** Rows of an encoding *)
Definition to_row (r : enc_row) : row := let '(id, tk, o, w, ty) := r in Row id ty tk w o 0 1.

Lemma rows_from_rows l : rows (from_rows l) = map to_row l.
Proof. unfold rows, from_rows. cbn. induction l as [|[[[[a b] c] d] e] l IH]; [reflexivity|]. cbn. rewrite IH. reflexivity. Qed.

Lemma located_shift orig ns : located orig ns -> exists u v, orig = u ++ n_original ns ++ v /\ n_shift ns = blen u.
Proof.
  unfold located, offsets_original. cbn [fst snd]. intros H. apply str_get_inv in H.
  destruct H as (p & q & H1 & H2 & H3). exists p, q. auto.
Qed.

Lemma boundary_shift u o v x : is_boundary o x = true -> is_boundary (u ++ o ++ v) (blen u + x) = true.
Proof.
  intros H. apply is_boundary_spec in H. destruct H as (p & q & -> & ->). apply is_boundary_spec.
  exists (u ++ p), (q ++ v). rewrite blen_app, <- !app_assoc. auto.
Qed.

Definition good_range (orig : str) (ns : nstring) (t : token) (o : offsets_t) : Prop :=
  source_range ns t o /\ fst (offsets_original ns) <= fst o /\ fst o <= snd o /\ snd o <= snd (offsets_original ns) /\
  is_boundary orig (fst o) = true /\ is_boundary orig (snd o) = true.

Lemma token_offsets_bytes orig ns t : aligned ns -> located orig ns -> token_fits ns t ->
  exists o, token_offsets orig false ns t = Ok o /\ good_range orig ns t o /\
    token_offsets orig true ns t = (let! c := convert_chars orig o in Ok (match c with Some o' => o' | None => o end)).
Proof.
  intros A L [T1 T2]. destruct (convert_normalized_any ns _ _ A T1 T2) as (s & e & y & x & E & E1 & E2).
  unfold token_offsets. rewrite E. exists (n_shift ns + s, n_shift ns + e).
  split; [reflexivity|]. split; [|reflexivity].
  destruct (aligned_range _ A _ _ _ E1) as (R1 & R2 & _). destruct (aligned_range _ A _ _ _ E2) as (R3 & _ & R4).
  destruct (aligned_sorted _ A (fst (t_offsets t)) (snd (t_offsets t) - 1) _ _ _ _ ltac:(lia) E1 E2) as [S1 S2].
  destruct (located_shift _ _ L) as (u & v & -> & Hu). split.
  - exists x, y. cbn [fst snd]. replace (n_shift ns + s - n_shift ns) with s by lia.
    replace (n_shift ns + e - n_shift ns) with e by lia. repeat split; auto; lia.
  - unfold offsets_original, n_len_original. cbn [fst snd]. pose proof (is_boundary_le _ _ R4).
    rewrite Hu. split; [lia|]. split; [lia|]. split; [lia|]. split; apply boundary_shift; assumption.
Qed.

Definition word_of (w : option N) (i : nat) : N := match w with Some x => x | None => N.of_nat i end.

Definition pre_ok (orig : str) (l : list split) : Prop :=
  Forall (fun sp => aligned (sp_norm sp) /\ located orig (sp_norm sp) /\ has_tokens sp = true) l /\
  (forall i ns t, In (i, ns, t) (all_tokens 0 l) -> token_fits ns t).

Lemma all_tokens_index l : forall i j, map (fun x => (snd (fst x), snd x)) (all_tokens i l)
  = map (fun x => (snd (fst x), snd x)) (all_tokens j l).
Proof.
  induction l as [|sp l IH]; intros i j; [reflexivity|]. cbn [all_tokens]. rewrite !map_app, !map_map. cbn.
  rewrite (IH (i + 1) (j + 1)). reflexivity.
Qed.

Lemma all_tokens_len l i j : length (all_tokens i l) = length (all_tokens j l).
Proof. rewrite <- (map_length (fun x => (snd (fst x), snd x))), (all_tokens_index l i j), map_length. reflexivity. Qed.

Lemma fits_index l i j :
  (forall k ns t, In (k, ns, t) (all_tokens i l) -> token_fits ns t) ->
  (forall k ns t, In (k, ns, t) (all_tokens j l) -> token_fits ns t).
Proof.
  intros H k ns t Hin. apply (in_map (fun x : nat * nstring * token => (snd (fst x), snd x))) in Hin.
  rewrite (all_tokens_index l j i) in Hin. apply in_map_iff in Hin. destruct Hin as ([[k' ns'] t'] & E & Hin).
  cbn in E. injection E as -> ->. eauto.
Qed.

Lemma all_tokens_app i a b : all_tokens i (a ++ b) = all_tokens i a ++ all_tokens (i + length a) b.
Proof.
  revert i. induction a as [|sp a IH]; intros i; cbn [app all_tokens length]; [rewrite Nat.add_0_r; reflexivity|].
  rewrite IH, <- app_assoc. do 3 f_equal. lia.
Qed.

(** Bytes and characters at once. *)
Lemma rows_of_split orig ns ts wd ty : aligned ns -> located orig ns -> Forall (token_fits ns) ts ->
  exists rs, map_res (token_row orig false wd ty ns) ts = Ok rs /\
    Forall2 (fun t (r : enc_row) => exists o, r = (t_id t, t_value t, o, Some wd, ty) /\ good_range orig ns t o) ts rs /\
    (Forall (fun r : enc_row => let '(_, _, o, _, _) := r in fst o < blen orig \/ orig = []) rs ->
     exists rc, map_res (token_row orig true wd ty ns) ts = Ok rc /\
       Forall2 (fun (r c : enc_row) => let '(a1, a2, o, a4, a5) := r in let '(b1, b2, o', b4, b5) := c in
          (a1, a2, a4, a5) = (b1, b2, b4, b5) /\ char_pos orig (fst o) (fst o') /\ char_pos orig (snd o) (snd o')) rs rc).
Proof.
  intros A L. induction ts as [|t ts IH]; intros F.
  - exists []. split; [reflexivity|]. split; [constructor|]. intros _. exists []. split; [reflexivity|constructor].
  - inversion F as [|? ? F1 F2]; subst. destruct (IH F2) as (rs & E & H & C).
    destruct (token_offsets_bytes orig ns t A L F1) as (o & E1 & G & EC).
    exists ((t_id t, t_value t, o, Some wd, ty) :: rs). cbn [map_res]. unfold token_row at 1. rewrite E1. cbn [bind].
    rewrite E. cbn [bind]. split; [reflexivity|]. split.
    + constructor; [|exact H]. exists o. auto.
    + intros B. inversion B as [|? ? B1 B2]; subst. destruct (C B2) as (rc & E2 & H2).
      destruct G as (_ & _ & G1 & _ & G2 & G3).
      destruct (char_pos_boundary _ _ G2) as (i1 & P1). destruct (char_pos_boundary _ _ G3) as (i2 & P2).
      destruct o as [o1 o2]. cbn [fst snd] in *.
      destruct (convert_chars_reported _ _ _ _ _ P1 P2 G1 B1) as (c & E3 & E4).
      exists ((t_id t, t_value t, (i1, i2), Some wd, ty) :: rc). unfold token_row at 1. rewrite EC, E3. cbn [bind]. rewrite E2. cbn [bind].
      rewrite E4. split; [reflexivity|]. constructor; [|exact H2]. cbn [fst snd]. auto.
Qed.

Lemma encoding_rows_ok orig w ty : forall l i,
  Forall (fun sp => aligned (sp_norm sp) /\ located orig (sp_norm sp) /\ has_tokens sp = true) l ->
  (forall k ns t, In (k, ns, t) (all_tokens i l) -> token_fits ns t) ->
  exists rs, encoding_rows orig false w ty i l = Ok rs /\
    Forall2 (fun x (r : enc_row) => let '(k, ns, t) := x in
        exists o, r = (t_id t, t_value t, o, Some (word_of w k), ty) /\ good_range orig ns t o) (all_tokens i l) rs /\
    (Forall (fun r : enc_row => let '(_, _, o, _, _) := r in fst o < blen orig \/ orig = []) rs ->
     exists rc, encoding_rows orig true w ty i l = Ok rc /\
       Forall2 (fun (r c : enc_row) => let '(a1, a2, o, a4, a5) := r in let '(b1, b2, o', b4, b5) := c in
          (a1, a2, a4, a5) = (b1, b2, b4, b5) /\ char_pos orig (fst o) (fst o') /\ char_pos orig (snd o) (snd o')) rs rc).
Proof.
  induction l as [|sp l IH]; intros i F T.
  - exists []. split; [reflexivity|]. split; [constructor|]. intros _. exists []. split; [reflexivity|constructor].
  - inversion F as [|? ? (A & L & H) F2]; subst. cbn [all_tokens encoding_rows] in *. unfold has_tokens in H.
    destruct (sp_tokens sp) as [ts|]; [|discriminate]. cbn [of_option bind].
    assert (T1 : Forall (token_fits (sp_norm sp)) ts).
    { apply Forall_forall. intros t Ht. apply (T i). apply in_or_app. left. apply in_map_iff. exists t. auto. }
    destruct (IH (i + 1) F2 (fun k ns t Hin => T k ns t (in_or_app _ _ _ (or_intror Hin)))) as (rs2 & E2 & H2 & C2).
    destruct (rows_of_split orig (sp_norm sp) ts (word_of w i) ty A L T1) as (rs1 & E1 & H1 & C1).
    exists (rs1 ++ rs2). change (match w with Some w0 => w0 | None => N.of_nat i end) with (word_of w i).
    rewrite E1, E2. cbn [bind]. split; [reflexivity|]. split.
    + apply Forall2_app; [|exact H2]. clear -H1. induction H1 as [|t r ts rs (o & -> & G) _ IH]; [constructor|].
      cbn [map]. constructor; [|exact IH]. exists o. auto.
    + intros B. apply Forall_app in B. destruct B as [B1 B2]. destruct (C1 B1) as (rc1 & E1' & H1').
      destruct (C2 B2) as (rc2 & E2' & H2'). exists (rc1 ++ rc2). rewrite E1', E2'. cbn [bind]. split; [reflexivity|].
      apply Forall2_app; assumption.
Qed.

(** ** Prefixes and suffixes of the splits *)
Lemma encoding_rows_app orig ch w ty : forall a b i r, encoding_rows orig ch w ty i (a ++ b) = Ok r ->
  exists ra rb, encoding_rows orig ch w ty i a = Ok ra /\ encoding_rows orig ch w ty (i + length a) b = Ok rb /\ r = ra ++ rb.
Proof.
  induction a as [|sp a IH]; intros b i r H; cbn [app encoding_rows length] in *.
  - exists [], r. rewrite Nat.add_0_r. auto.
  - apply bind_ok in H. destruct H as (ts & E & H). apply bind_ok in H. destruct H as (r1 & E1 & H).
    apply bind_ok in H. destruct H as (r2 & E2 & H). injection H as <-.
    destruct (IH _ _ _ E2) as (ra & rb & Ha & Hb & ->). exists (r1 ++ ra), rb. rewrite E. cbn [bind]. rewrite E1, Ha. cbn [bind].
    split; [reflexivity|]. split; [|rewrite app_assoc; reflexivity]. rewrite <- Hb. f_equal. lia.
Qed.

Lemma map_res_length {E A B} (f : A -> res E B) l l' : map_res f l = Ok l' -> length l' = length l.
Proof. intros H. apply map_res_ok in H. induction H; cbn; congruence. Qed.

Lemma encoding_rows_len orig ch w ty : forall l i r, encoding_rows orig ch w ty i l = Ok r -> length r = length (all_tokens i l).
Proof.
  induction l as [|sp l IH]; intros i r H; cbn [encoding_rows all_tokens] in *; [injection H as <-; reflexivity|].
  apply bind_ok in H. destruct H as (ts & E & H). apply bind_ok in H. destruct H as (r1 & E1 & H).
  apply bind_ok in H. destruct H as (r2 & E2 & H). injection H as <-. rewrite !app_length, map_length.
  rewrite (IH _ _ E2), (map_res_length _ _ _ E1). destruct (sp_tokens sp); [|discriminate]. cbn in E. injection E as ->. reflexivity.
Qed.

Definition strip_word (r : enc_row) : enc_row := let '(a, b, c, _, e) := r in (a, b, c, None, e).

Lemma token_row_word orig ch wd1 wd2 ty ns t : match token_row orig ch wd1 ty ns t, token_row orig ch wd2 ty ns t with
  | Ok r1, Ok r2 => strip_word r1 = strip_word r2 | Err _, Err _ => True | Panic, Panic => True | _, _ => False end.
Proof. unfold token_row. destruct (token_offsets orig ch ns t); cbn; auto. Qed.

Lemma map_row_word orig ch wd1 wd2 ty ns ts r1 : map_res (token_row orig ch wd1 ty ns) ts = Ok r1 ->
  exists r2, map_res (token_row orig ch wd2 ty ns) ts = Ok r2 /\ map strip_word r1 = map strip_word r2.
Proof.
  revert r1. induction ts as [|t ts IH]; intros r1 H; cbn [map_res] in *; [injection H as <-; exists []; auto|].
  apply bind_ok in H. destruct H as (x & E & H). apply bind_ok in H. destruct H as (xs & E2 & H). injection H as <-.
  pose proof (token_row_word orig ch wd1 wd2 ty ns t) as W. rewrite E in W.
  destruct (token_row orig ch wd2 ty ns t) as [y|?|]; try contradiction. destruct (IH _ E2) as (ys & E3 & H3).
  exists (y :: ys). cbn [bind]. rewrite E3. cbn [bind map]. split; [reflexivity|congruence].
Qed.

Lemma encoding_rows_reindex orig ch w ty : forall l i j r, encoding_rows orig ch w ty i l = Ok r ->
  exists r', encoding_rows orig ch w ty j l = Ok r' /\ map strip_word r = map strip_word r' /\ (w <> None -> r = r').
Proof.
  induction l as [|sp l IH]; intros i j r H; cbn [encoding_rows] in *; [injection H as <-; exists []; auto|].
  apply bind_ok in H. destruct H as (ts & E & H). apply bind_ok in H. destruct H as (r1 & E1 & H).
  apply bind_ok in H. destruct H as (r2 & E2 & H). injection H as <-.
  destruct (IH _ (j + 1) _ E2) as (r2' & E2' & H2 & W2).
  destruct (map_row_word _ _ _ (match w with Some x => x | None => N.of_nat j end) _ _ _ _ E1) as (r1' & E1' & H1).
  exists (r1' ++ r2'). rewrite E. cbn [bind]. rewrite E1', E2'. cbn [bind]. split; [reflexivity|]. rewrite !map_app. split; [congruence|].
  intros Hw. rewrite (W2 Hw). destruct w; [|congruence]. rewrite E1 in E1'. injection E1' as <-. reflexivity.
Qed.

(** ** Token limits *)
Lemma tokens_nb l i : length (all_tokens i l) = number_of_tokens l.
Proof. apply all_tokens_len. Qed.

Lemma number_cons sp l : number_of_tokens (sp :: l) = length (match sp_tokens sp with Some ts => ts | None => [] end) + number_of_tokens l.
Proof. unfold number_of_tokens at 1. cbn [all_tokens]. rewrite app_length, map_length, tokens_nb. reflexivity. Qed.

Lemma limit_loop_prefix {E} (f : nstring -> res E (list token)) mx : forall l total full,
  map_res (tokenize_one f) l = Ok full ->
  exists n, n <= length full /\ limit_loop f mx total l = Ok (firstn n full) /\
    (n = length full \/ mx <= total + number_of_tokens (firstn n full)).
Proof.
  induction l as [|sp l IH]; intros total full H; cbn [map_res limit_loop] in *.
  - injection H as <-. exists 0. cbn. auto.
  - apply bind_ok in H. destruct H as (sp' & E1 & H). apply bind_ok in H. destruct H as (r & E2 & H). injection H as <-.
    unfold tokenize_one in E1. destruct (sp_tokens sp) as [ts|] eqn:Et.
    + injection E1 as <-. destruct (IH (total + length ts) _ E2) as (n & L & EE & D). exists (S n). cbn [length firstn]. rewrite EE.
      split; [lia|]. split; [reflexivity|]. rewrite number_cons, Et. destruct D; lia.
    + apply bind_ok in E1. destruct E1 as (ts & E1 & E3). injection E3 as <-. rewrite E1. cbn [bind].
      destruct (Nat.leb_spec mx (total + length ts)) as [H|H].
      * exists 1. cbn [firstn length]. split; [lia|]. split; [reflexivity|]. right. rewrite number_cons. cbn [sp_tokens]. lia.
      * destruct (IH (total + length ts) _ E2) as (n & L & EE & D). exists (S n). cbn [length firstn]. rewrite EE.
        split; [lia|]. split; [reflexivity|]. rewrite number_cons. cbn [sp_tokens]. destruct D; lia.
Qed.

Lemma map_res_rev {E A B} (f : A -> res E B) l l' : map_res f l = Ok l' -> map_res f (rev l) = Ok (rev l').
Proof.
  intros H. apply map_res_ok in H.
  assert (C : forall l l', Forall2 (fun a b => f a = Ok b) l l' -> map_res f l = Ok l').
  { clear. induction 1 as [|a b l l' H _ IH]; [reflexivity|]. cbn. rewrite H, IH. reflexivity. }
  apply C. clear C. induction H as [|a b l l' H _ IH]; [constructor|]. cbn [rev]. apply Forall2_app; [exact IH|]. constructor; auto.
Qed.

Lemma tokenized_all {E} (f : nstring -> res E (list token)) l l' :
  map_res (tokenize_one f) l = Ok l' -> forallb has_tokens l' = true.
Proof.
  intros H. apply map_res_ok in H. apply forallb_forall. intros sp Hin.
  induction H as [|a b l l' H _ IH]; [destruct Hin|]. destruct Hin as [<-|Hin]; [|auto].
  unfold tokenize_one, has_tokens in *. destruct (sp_tokens a) as [ts|] eqn:Ea; [injection H as <-; rewrite Ea; reflexivity|].
  apply bind_ok in H. destruct H as (ts & _ & H). injection H as <-. reflexivity.
Qed.

Lemma number_rev l : number_of_tokens (rev l) = number_of_tokens l.
Proof.
  induction l as [|sp l IH]; [reflexivity|]. cbn [rev]. unfold number_of_tokens. rewrite all_tokens_app, app_length, !tokens_nb, IH.
  rewrite !number_cons. unfold number_of_tokens. cbn [all_tokens length]. lia.
Qed.

(** The rows [into_encoding] builds, whatever the offset type. *)
Definition build_rows (orig : str) (w : option N) (ty : N) (ot : offset_type) (i : nat) (l : list split) : res unit (list enc_row) :=
  match ot with
  | ONone => Ok (map (fun x : nat * nstring * token => (t_id (snd x), [], (0, 0), None, 0%N)) (all_tokens i l))
  | OByte => encoding_rows orig false w ty i l
  | OChar => encoding_rows orig true w ty i l
  end.

Lemma all_tokens_flat l : forall i, map snd (all_tokens i l) = flat_map (fun sp => match sp_tokens sp with Some ts => ts | None => [] end) l.
Proof.
  induction l as [|sp l IH]; intros i; [reflexivity|]. cbn [all_tokens flat_map]. rewrite map_app, IH, map_map. cbn. rewrite map_id. reflexivity.
Qed.

Lemma into_encoding_build pt w ty ot : forallb has_tokens (pt_splits pt) = true ->
  into_encoding pt w ty ot = let! r := build_rows (pt_original pt) w ty ot 0 (pt_splits pt) in Ok (from_rows r).
Proof.
  intros H. unfold into_encoding. rewrite H. cbn [negb]. destruct (pt_splits pt) as [|sp l] eqn:El.
  - destruct ot; reflexivity.
  - cbn [is_nil]. destruct ot; try reflexivity. cbn [build_rows bind].
    rewrite <- (all_tokens_flat (sp :: l) 0), map_map. reflexivity.
Qed.

Lemma build_app orig w ty ot a b i r : build_rows orig w ty ot i (a ++ b) = Ok r ->
  exists ra rb, build_rows orig w ty ot i a = Ok ra /\ build_rows orig w ty ot (i + length a) b = Ok rb /\ r = ra ++ rb.
Proof.
  destruct ot; cbn [build_rows]; try apply encoding_rows_app. intros H. injection H as <-.
  rewrite all_tokens_app, map_app. eauto.
Qed.

Lemma build_len orig w ty ot l i r : build_rows orig w ty ot i l = Ok r -> length r = number_of_tokens l.
Proof.
  rewrite <- (tokens_nb l i). destruct ot; cbn [build_rows]; try apply encoding_rows_len. intros H. injection H as <-. apply map_length.
Qed.

Lemma build_reindex orig w ty ot l i j r : build_rows orig w ty ot i l = Ok r ->
  exists r', build_rows orig w ty ot j l = Ok r' /\ map strip_word r = map strip_word r' /\ (w <> None -> r = r').
Proof.
  destruct ot; cbn [build_rows]; try apply encoding_rows_reindex. intros H. injection H as <-. eexists. split; [reflexivity|].
  assert (E : map (fun x : nat * nstring * token => (t_id (snd x), @nil N, (0, 0), @None N, 0%N)) (all_tokens i l)
            = map (fun x : nat * nstring * token => (t_id (snd x), [], (0, 0), None, 0%N)) (all_tokens j l)).
  { pose proof (f_equal (map (fun y : nstring * token => (t_id (snd y), @nil N, (0, 0), @None N, 0%N))) (all_tokens_index l i j)) as E.
    rewrite !map_map in E. exact E. }
  rewrite E. auto.
Qed.

Lemma no_word_strip r : no_word (to_row r) = to_row (strip_word r).
Proof. destruct r as [[[[a b] c] d] e]. reflexivity. Qed.

(** ** Totality *)
Lemma convert_chars_total s o : exists c, convert_chars s o = Ok c.
Proof.
  unfold convert_chars. destruct (assoc_get (fst o) _) as [st|] eqn:E1; [|eauto].
  destruct (assoc_get (snd o) _) as [en|] eqn:E2; [eauto|].
  destruct (Nat.eqb_spec (snd o) 0) as [Z|Z]; [|eauto]. exfalso. destruct s as [|c s]; [discriminate|].
  pose proof (len_utf8_pos c). pose proof (converter_hit [] 0 0 c s 0 ltac:(lia)) as H0.
  change (0 + blen [] + 0) with 0 in H0. change ([] ++ c :: s) with (c :: s) in H0. rewrite Z in E2. congruence.
Qed.

Lemma token_row_total orig ch wd ty ns t : exists r, token_row orig ch wd ty ns t = Ok r.
Proof.
  unfold token_row, token_offsets. destruct ch; [|cbn; eauto].
  match goal with |- context [convert_chars ?s ?o] => destruct (convert_chars_total s o) as [c ->] end. cbn. eauto.
Qed.

Lemma encoding_rows_total orig ch w ty : forall l i, forallb has_tokens l = true -> exists r, encoding_rows orig ch w ty i l = Ok r.
Proof.
  induction l as [|sp l IH]; intros i H; cbn [encoding_rows forallb] in *; [eauto|].
  apply andb_prop in H. destruct H as [H1 H2]. unfold has_tokens in H1. destruct (sp_tokens sp) as [ts|]; [|discriminate]. cbn [of_option bind].
  destruct (IH (i + 1) H2) as [r2 E2].
  assert (M : exists r, map_res (token_row orig ch match w with Some w0 => w0 | None => N.of_nat i end ty (sp_norm sp)) ts = Ok r).
  { clear. induction ts as [|t ts [r E]]; [cbn; eauto|]. cbn [map_res].
    destruct (token_row_total orig ch match w with Some w0 => w0 | None => N.of_nat i end ty (sp_norm sp) t) as [x Ex]. rewrite Ex. cbn [bind]. rewrite E. cbn. eauto. }
  destruct M as [r1 E1]. rewrite E1. cbn [bind]. rewrite E2. cbn. eauto.
Qed.

Lemma build_total orig w ty ot l i : forallb has_tokens l = true -> exists r, build_rows orig w ty ot i l = Ok r.
Proof. intros H. destruct ot; cbn [build_rows]; try (apply encoding_rows_total; exact H). eauto. Qed.

Lemma forallb_has_tokens l : forallb has_tokens l = false <-> exists sp, In sp l /\ sp_tokens sp = None.
Proof.
  induction l as [|sp l IH]; cbn [forallb].
  - split; [discriminate|intros (x & [] & _)].
  - rewrite Bool.andb_false_iff, IH. unfold has_tokens at 1. split.
    + intros [H|(x & H1 & H2)]; [|exists x; split; [right; exact H1|exact H2]].
      exists sp. split; [left; reflexivity|]. destruct (sp_tokens sp); [discriminate|reflexivity].
    + intros (x & [<-|H1] & H2); [left; rewrite H2; reflexivity|right; eauto].
Qed.
