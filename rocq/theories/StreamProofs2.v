(** Which decoders are steady or local. *)
From Verif Require Import Base ListFacts StrBytes Utf8 PatternModel PatternProofs PatternSpec EncodingModel NormModel NormSpec AddedModel
  DecodersModel DecodersSpec DecodersProofs DecodersProofs3 DecodersProps StreamModel StreamSpec StreamProofs.

(** ** Lossy decoding *)
Lemma step_shorter b r : match utf8_step b r with UChar _ r' | UBad r' => length r' <= length r end.
Proof.
  unfold utf8_step. repeat match goal with
    | |- context [if ?c then _ else _] => destruct c
    | |- context [match ?l with [] => _ | _ :: _ => _ end] => is_var l; destruct l
    end; cbn [length]; lia.
Qed.
Lemma step_app b r x : match utf8_step b r with
  | UChar c r' => utf8_step b (r ++ x) = UChar c (r' ++ x)
  | UBad r' => r' <> [] -> utf8_step b (r ++ x) = UBad (r' ++ x) end.
Proof.
  unfold utf8_step. destruct (b <? 128)%N; [reflexivity|].
  destruct (Utf8.in_range 194 b 223). { destruct r as [|b1 r]; cbn [app]; [congruence|]. destruct (is_cont b1); auto. }
  destruct (Utf8.in_range 224 b 239).
  { destruct r as [|b1 r]; cbn [app]; [congruence|]. destruct (second_ok b b1); [|auto]. destruct r as [|b2 r]; cbn [app]; [congruence|]. destruct (is_cont b2); auto. }
  destruct (Utf8.in_range 240 b 244); [|auto].
  destruct r as [|b1 r]; cbn [app]; [congruence|]. destruct (second_ok b b1); [|auto]. destruct r as [|b2 r]; cbn [app]; [congruence|].
  destruct (is_cont b2); [|auto]. destruct r as [|b3 r]; cbn [app]; [congruence|]. destruct (is_cont b3); auto.
Qed.
Lemma lossy_fuel_more : forall f g l, length l <= f -> length l <= g -> lossy_fuel f l = lossy_fuel g l.
Proof.
  induction f as [|f IH]; intros g l Hf Hg; [destruct l; [destruct g; reflexivity|cbn in Hf; lia]|].
  destruct l as [|b r]; [destruct g; reflexivity|]. destruct g as [|g]; [cbn in Hg; lia|]. cbn [lossy_fuel length] in *.
  pose proof (step_shorter b r) as L. destruct (utf8_step b r); f_equal; apply IH; lia.
Qed.
Lemma lossy_cons b r : from_utf8_lossy (b :: r) = match utf8_step b r with UChar c r' => c :: from_utf8_lossy r' | UBad r' => replacement_char :: from_utf8_lossy r' end.
Proof.
  unfold from_utf8_lossy. cbn [lossy_fuel length]. pose proof (step_shorter b r) as L. destruct (utf8_step b r); f_equal; apply lossy_fuel_more; lia.
Qed.
Lemma complete_cons c (t : str) : complete (c :: t) -> complete t.
Proof. intros H u E. apply (H (c :: u)). rewrite E. reflexivity. Qed.
Lemma lossy_app x : forall n bs, length bs <= n -> complete (from_utf8_lossy bs) -> from_utf8_lossy (bs ++ x) = from_utf8_lossy bs ++ from_utf8_lossy x.
Proof.
  induction n as [|n IH]; intros bs L C; [destruct bs; [reflexivity|cbn in L; lia]|]. destruct bs as [|b r]; [reflexivity|].
  cbn [app length] in *. rewrite !lossy_cons in *. pose proof (step_app b r x) as A. pose proof (step_shorter b r) as S. destruct (utf8_step b r) as [c r'|r'].
  - rewrite A. cbn [app]. f_equal. apply IH; [lia|]. eapply complete_cons, C.
  - destruct r' as [|b' r'']; [exfalso; exact (C [] eq_refl)|]. rewrite A by discriminate. cbn [app]. f_equal. apply (IH (b' :: r'')); [lia|]. eapply complete_cons, C.
Qed.

Lemma byte_level_steady : steady (decode_tokens DByteLevel).
Proof.
  assert (E : forall toks, decode_tokens DByteLevel toks = Ok (from_utf8_lossy (flat_map token_bytes toks))).
  { intros toks. unfold decode_tokens. cbn [decode_chain bind byte_level_decode concat]. unfold byte_level_decode. cbn [concat]. rewrite app_nil_r. reflexivity. }
  split; [|split; [|split]].
  - rewrite E. reflexivity.
  - intros toks. rewrite E. eauto.
  - intros R S r _ H C. rewrite !E in *. injection H as <-. rewrite flat_map_app, (lossy_app _ _ _ (le_n _) C). eauto.
  - intros P R S p q r _ _ H1 C1 H2 C2 H3. rewrite !E in *. injection H1 as <-. injection H2 as <-. injection H3 as <-. rewrite !flat_map_app in *.
    rewrite (lossy_app _ _ _ (le_n _) C1) in C2. assert (C3 : complete (from_utf8_lossy (flat_map token_bytes R))) by (intros u X; apply (C2 (from_utf8_lossy (flat_map token_bytes P) ++ u)); rewrite X, app_assoc; reflexivity).
    exists (from_utf8_lossy (flat_map token_bytes S)). rewrite (lossy_app _ _ _ (le_n _) C3), (lossy_app _ _ _ (le_n _) C1), (lossy_app _ _ _ (le_n _) C3), (lossy_app _ _ _ (le_n _) C1), app_assoc. auto.
Qed.

(** ** Decoders that only look at the previous token *)
Lemma after_steady {E} (dec : list str -> res E str) (f : str -> list str -> str) :
  dec [] = Ok [] -> (forall toks, exists s, dec toks = Ok s) ->
  (forall R t S r, dec (R ++ [t]) = Ok r -> dec (R ++ t :: S) = Ok (r ++ f t S)) -> steady dec.
Proof.
  intros H0 H1 H. split; [exact H0|]. split; [exact H1|]. split.
  - intros R S r N Er _. destruct (exists_last N) as (R' & t & ->). rewrite <- app_assoc. cbn [app]. eauto.
  - intros P R S p q r _ N _ _ Eq _ Er. destruct (exists_last N) as (R' & t & ->). exists (f t S). rewrite <- !app_assoc. cbn [app]. split; [auto|].
    rewrite app_assoc in Eq. rewrite app_assoc. auto.
Qed.

Lemma metaspace_steady rep scheme : steady (decode_tokens (DMetaspace rep scheme)).
Proof.
  apply (after_steady _ (fun _ S => concat (metaspace_decode rep scheme false S))); [reflexivity|intros toks; eexists; reflexivity|].
  intros R t S r. unfold decode_tokens. cbn [decode_chain bind]. intros H. injection H as <-. f_equal.
  generalize true as first. induction R as [|x R IH]; intros first; cbn [app metaspace_decode concat]; [rewrite app_nil_r; reflexivity|]. rewrite IH, app_assoc. reflexivity.
Qed.

Lemma wordpiece_steady prefix cleanup : steady (decode_tokens (DWordPiece prefix cleanup)).
Proof.
  apply (after_steady _ (fun _ S => concat (wordpiece_decode prefix cleanup false S))); [reflexivity|intros toks; eexists; reflexivity|].
  intros R t S r. unfold decode_tokens. cbn [decode_chain bind]. intros H. injection H as <-. f_equal.
  generalize true as first. induction R as [|x R IH]; intros first; cbn [app wordpiece_decode concat]; [rewrite app_nil_r; reflexivity|]. rewrite IH, app_assoc. reflexivity.
Qed.

Lemma dedup_head x l : exists r, dedup (x :: l) = x :: r.
Proof.
  revert x. induction l as [|y l IH]; intros x; [exists []; reflexivity|]. rewrite dedup_cons. destruct (str_eqb x y) eqn:Exy; [|eauto].
  apply str_eqb_eq in Exy. subst y. apply IH.
Qed.
Lemma dedup_after R t S : dedup (R ++ t :: S) = dedup (R ++ [t]) ++ tl (dedup (t :: S)).
Proof.
  induction R as [|x R IH].
  - cbn [app]. destruct (dedup_head t S) as [r ->]. reflexivity.
  - cbn [app]. rewrite !dedup_cons, IH. destruct R as [|y R].
    + cbn [app]. destruct (str_eqb x t); reflexivity.
    + cbn [app]. destruct (str_eqb x y); reflexivity.
Qed.
Lemma ctc_steady pad delim cleanup : steady (decode_tokens (DCtc pad delim cleanup)).
Proof.
  apply (after_steady _ (fun t S => concat (filter (fun t => negb (is_nil t)) (map (ctc_token pad delim cleanup) (tl (dedup (t :: S))))))); [reflexivity|intros toks; eexists; reflexivity|].
  intros R t S r. unfold decode_tokens. cbn [decode_chain bind]. intros H. injection H as <-. f_equal. unfold ctc_decode. rewrite dedup_after, map_app, filter_app, concat_app. reflexivity.
Qed.

Lemma fuse_steady : steady (decode_tokens DFuse).
Proof.
  apply (after_steady _ (fun _ S => concat S)); [reflexivity|intros toks; eexists; reflexivity|].
  intros R t S r. unfold decode_tokens. cbn [decode_chain bind concat]. intros H. injection H as <-. f_equal. rewrite !app_nil_r. change (R ++ t :: S) with (R ++ [t] ++ S). rewrite app_assoc, concat_app. reflexivity.
Qed.

Lemma replace_steady find content : (forall s, engine_matches s 0 (find s)) -> steady (decode_tokens (DReplace find content)).
Proof.
  intros HF. assert (F : exists f : str -> str, forall t, replace_parts content t (regex_find_matches find t) = @Ok unit str (f t)).
  { exists (fun t => match replace_parts content t (regex_find_matches find t) with @Ok _ _ s => s | @Err _ _ (tt) => [] | Panic => [] end).
    intros t. destruct (C51_replace find content [t] HF) as (out & E & _). cbn [decode_chain] in E. unfold replace_decode in E. cbn [map_res] in E.
    destruct (replace_parts content t (regex_find_matches find t)); cbn [bind] in E; [reflexivity|discriminate|discriminate]. }
  destruct F as [f F]. assert (M : forall toks, decode_tokens (DReplace find content) toks = Ok (flat_map f toks)).
  { intros toks. unfold decode_tokens. cbn [decode_chain]. unfold replace_decode. assert (X : map_res (fun t => replace_parts content t (regex_find_matches find t)) toks = @Ok unit _ (map f toks)).
    { induction toks as [|t toks IH]; [reflexivity|]. cbn [map_res map]. rewrite F. cbn [bind]. rewrite IH. reflexivity. }
    rewrite X. cbn [bind]. rewrite flat_map_concat_map. reflexivity. }
  apply (after_steady _ (fun _ S => flat_map f S)); [apply M|intros toks; eexists; apply M|].
  intros R t S r. rewrite !M. intros H. injection H as <-. f_equal. rewrite !flat_map_app. cbn [flat_map]. rewrite app_nil_r, app_assoc. reflexivity.
Qed.

Lemma join_steady : steady (fun ts => @Ok unit str (join_space ts)).
Proof.
  apply (after_steady _ (fun _ S => flat_map (fun t : str => 32%N :: t) S)); [reflexivity|intros toks; eexists; reflexivity|].
  intros R t S r H. injection H as <-. f_equal.
  assert (J : forall t l, join_space (t :: l) = t ++ flat_map (fun t : str => 32%N :: t) l).
  { clear. intros t l. revert t. induction l as [|u l IH]; intros t; [cbn; rewrite app_nil_r; reflexivity|]. change (join_space (t :: u :: l)) with (t ++ 32%N :: join_space (u :: l)). rewrite IH. reflexivity. }
  destruct R as [|x R]; cbn [app]; rewrite !J; [cbn; rewrite app_nil_r; reflexivity|]. rewrite !flat_map_app. cbn [flat_map]. rewrite app_nil_r. rewrite <- !app_assoc. reflexivity.
Qed.

(** ** BPE *)
Lemma bpe_prepend suffix P Q q : Q <> [] -> decode_tokens (DBpe suffix) Q = Ok q ->
  decode_tokens (DBpe suffix) (P ++ Q) = Ok (flat_map (fun t => str_replace suffix [32%N] t) P ++ q).
Proof.
  intros N. unfold decode_tokens. cbn [decode_chain]. unfold bpe_decode.
  destruct Q as [|y Q]; [congruence|]. cbn [is_nil bind]. intros H. injection H as <-. destruct (P ++ y :: Q) eqn:X; [destruct P; discriminate|]. cbn [is_nil bind]. rewrite <- X. f_equal. clear.
  induction P as [|x P IH]; [reflexivity|]. change ((x :: P) ++ y :: Q) with (x :: (P ++ y :: Q)).
  cbn [bpe_decode_from flat_map]. change (concat (?a :: ?b)) with (a ++ concat b).
  rewrite <- app_assoc, <- IH. destruct P; reflexivity.
Qed.
Lemma bpe_local suffix : local (decode_tokens (DBpe suffix)).
Proof.
  split; [intros s H; discriminate|]. intros P R S p q r x _ NR _ _ Eq _ Er Ex.
  rewrite (bpe_prepend _ P R r NR Er) in Eq. injection Eq as <-.
  rewrite (bpe_prepend _ P (R ++ S) (r ++ x)); [rewrite app_assoc; reflexivity|destruct R; [congruence|discriminate]|exact Ex].
Qed.

(** ** ByteFallback *)
Notation scalars := (Forall (fun c => is_scalar c = true)).
Lemma encode_prefix : forall t1 t c, scalars t1 -> scalars t -> encode_utf8 t = encode_utf8 t1 ++ c ->
  exists t2, t = t1 ++ t2 /\ c = encode_utf8 t2 /\ scalars t2.
Proof.
  induction t1 as [|x t1 IH]; intros t c F1 F E; [exists t; repeat split; auto|].
  inversion F1 as [|? ? Sx F1']; subst. change (encode_utf8 (x :: t1)) with (encode_char x ++ encode_utf8 t1) in E. rewrite <- app_assoc in E.
  destruct (encode_step x (encode_utf8 t1 ++ c) Sx) as (b0 & r & E1 & E2). rewrite E1 in E.
  destruct t as [|y t]; [discriminate|]. inversion F as [|? ? Sy F']; subst. change (encode_utf8 (y :: t)) with (encode_char y ++ encode_utf8 t) in E.
  destruct (encode_step y (encode_utf8 t) Sy) as (b0' & r' & E1' & E2'). rewrite E1' in E. assert (b0' = b0) as -> by congruence. assert (r' = r) as -> by congruence.
  rewrite E2 in E2'. assert (x = y) as <- by congruence. assert (H : encode_utf8 t = encode_utf8 t1 ++ c) by congruence.
  destruct (IH t c F1' F' H) as (t2 & -> & Ec & F2). exists t2. auto.
Qed.

Definition flushed (bs : list N) : str := concat (flush_bytes bs).
Lemma flushed_valid t : scalars t -> flushed (encode_utf8 t) = t.
Proof.
  intros F. unfold flushed, flush_bytes. destruct (encode_utf8 t) as [|b bs] eqn:E.
  - destruct t as [|c t]; [reflexivity|]. exfalso. apply (f_equal (@length N)) in E. rewrite encode_utf8_len in E. cbn [blen] in E. pose proof (len_utf8_pos c). cbn in E. lia.
  - cbn [is_nil]. rewrite <- E, (from_utf8_encode t F). cbn. apply app_nil_r.
Qed.
Lemma concat_repeat n : concat (repeat [replacement_char] n) = repeat replacement_char n.
Proof. induction n; [reflexivity|]. cbn. f_equal. assumption. Qed.
Lemma flushed_cases bs : (exists t, scalars t /\ bs = encode_utf8 t /\ flushed bs = t) \/ (bs <> [] /\ flushed bs = repeat replacement_char (length bs)).
Proof.
  destruct bs as [|b bs]; [left; exists []; repeat split; constructor|]. destruct (from_utf8 (b :: bs)) as [t|] eqn:E.
  - apply from_utf8_inv in E. destruct E as [E F]. left. exists t. split; [exact F|]. split; [auto|]. rewrite <- E. apply flushed_valid, F.
  - right. split; [discriminate|]. unfold flushed, flush_bytes. cbn [is_nil]. rewrite E. apply concat_repeat.
Qed.
Lemma repeat_snoc {A} (x : A) n : repeat x (S n) = repeat x n ++ [x].
Proof. induction n; [reflexivity|]. cbn [repeat app] in *. f_equal. exact IHn. Qed.
Lemma flushed_complete u bs : complete (u ++ flushed bs) -> exists t, scalars t /\ bs = encode_utf8 t /\ flushed bs = t.
Proof.
  intros C. destruct (flushed_cases bs) as [H|[N H]]; [exact H|]. exfalso. rewrite H in C. destruct bs as [|b bs]; [congruence|].
  cbn [length] in C. rewrite repeat_snoc, app_assoc in C. exact (C _ eq_refl).
Qed.

(** Byte tokens in front. *)
Lemma lead_run l : exists ts bs r, l = ts ++ r /\ Forall2 byte_like ts bs /\ starts_plain r.
Proof.
  induction l as [|t l (ts & bs & r & -> & F & P)]; [exists [], [], []; repeat split; constructor|].
  destruct (@byte_of_token_spec unit t) as ([b|] & _ & S).
  - exists (t :: ts), (b :: bs), r. split; [reflexivity|]. split; [constructor; [apply S; reflexivity|exact F]|exact P].
  - exists [], [], (t :: ts ++ r). split; [reflexivity|]. split; [constructor|]. intros b B. apply S in B. discriminate.
Qed.
(** Byte tokens at the end. *)
Definition ends_plain (l : list str) : Prop := l = [] \/ exists l' t, l = l' ++ [t] /\ forall b, ~ byte_like t b.
Lemma trail_run l : exists r ts bs, l = r ++ ts /\ Forall2 byte_like ts bs /\ ends_plain r.
Proof.
  induction l as [|t l IH] using rev_ind; [exists [], [], []; repeat split; [constructor|now left]|].
  destruct (@byte_of_token_spec unit t) as ([b|] & _ & S).
  - destruct (IH) as (r & ts & bs & -> & F & P). exists r, (ts ++ [t]), (bs ++ [b]). split; [rewrite app_assoc; reflexivity|]. split; [|exact P].
    apply Forall2_app; [exact F|]. constructor; [apply S; reflexivity|constructor].
  - exists (l ++ [t]), [], []. split; [rewrite app_nil_r; reflexivity|]. split; [constructor|]. right. exists l, t. split; [reflexivity|]. intros b B. apply S in B. discriminate.
Qed.

Notation BF := (decode_tokens DByteFallback).
Definition bf (l : list str) : str := match BF l with Ok s => s | _ => [] end.
Lemma bf_ok l : BF l = Ok (bf l).
Proof.
  unfold bf. destruct (@fallback_total unit _ l (le_n _)) as (out & E & _). unfold decode_tokens. cbn [decode_chain]. rewrite E. reflexivity.
Qed.
Lemma bf_eq l out : fallback_decode l = @Ok unit _ out -> bf l = concat out.
Proof. intros E. unfold bf, decode_tokens. cbn [decode_chain]. rewrite E. reflexivity. Qed.
Lemma loop_ends : forall l prev o1 Z o2, ends_plain l -> l <> [] -> @fallback_loop unit l prev = Ok o1 -> @fallback_loop unit Z [] = Ok o2 ->
  @fallback_loop unit (l ++ Z) prev = Ok (o1 ++ o2).
Proof.
  induction l as [|t l IH]; intros prev o1 Z o2 P N E1 E2; [congruence|]. cbn [app fallback_loop] in *.
  destruct (@byte_of_token_spec unit t) as (o & Et & S). rewrite Et in *. cbn [bind] in *. destruct P as [P|(l' & u & P & Q)]; [discriminate|].
  destruct l as [|v l].
  - destruct l' as [|? l']; [|destruct l'; discriminate]. injection P as ->. destruct o as [b|]; [exfalso; apply (Q b), S; reflexivity|].
    cbn [fallback_loop bind flush_bytes is_nil] in E1. injection E1 as <-. cbn [app]. rewrite E2. cbn [bind]. rewrite <- app_assoc. reflexivity.
  - destruct l' as [|? l']; [discriminate|]. injection P as -> P. assert (P' : ends_plain (v :: l)) by (right; exists l', u; auto).
    destruct o as [b|].
    + apply IH; auto; discriminate.
    + destruct (fallback_loop (v :: l) []) as [o|e|] eqn:Eo; cbn [bind] in E1; [|discriminate|discriminate]. injection E1 as <-.
      rewrite (IH [] o Z o2 P' ltac:(discriminate) Eo E2). cbn [bind]. rewrite <- !app_assoc. reflexivity.
Qed.
Lemma bf_parts A ts bs Y : ends_plain A -> Forall2 byte_like ts bs -> starts_plain Y -> bf (A ++ ts ++ Y) = bf A ++ flushed bs ++ bf Y.
Proof.
  intros HA F P. destruct (@fallback_total unit _ A (le_n _)) as (oa & Ea & _). destruct (@fallback_total unit _ Y (le_n _)) as (oy & Ey & _).
  assert (Em : fallback_decode (ts ++ Y) = @Ok unit _ (flush_bytes bs ++ oy)).
  { unfold fallback_decode in *. rewrite (fallback_loop_run _ _ _ _ F). cbn [app]. rewrite (fallback_flush _ _ P), Ey. reflexivity. }
  rewrite (bf_eq A oa Ea), (bf_eq Y oy Ey). destruct A as [|a A].
  - cbn [app]. rewrite (bf_eq _ _ Em), concat_app. injection Ea as <-. reflexivity.
  - rewrite (bf_eq _ (oa ++ flush_bytes bs ++ oy)); [rewrite !concat_app; reflexivity|].
    unfold fallback_decode in *. apply loop_ends; auto; discriminate.
Qed.

Lemma prefix_of_repeat (t x y : str) n : t ++ x = repeat replacement_char n ++ y -> length t <= n -> t <> [] -> complete t -> False.
Proof.
  intros E L N C. destruct (exists_last N) as (t' & c & ->). rewrite app_length in L. cbn in L.
  assert (X : nth_error ((t' ++ [c]) ++ x) (length t') = nth_error (repeat replacement_char n ++ y) (length t')) by (rewrite E; reflexivity).
  rewrite <- app_assoc, nth_error_app2, Nat.sub_diag in X by lia. cbn [app nth_error] in X.
  rewrite nth_error_app1 in X by (rewrite repeat_length; lia). symmetry in X. apply nth_error_In, repeat_spec in X. subst c. exact (C t' eq_refl).
Qed.

Lemma str_len_bytes t : length t <= length (encode_utf8 t).
Proof. rewrite encode_utf8_len. induction t as [|c t IH]; [cbn; lia|]. cbn [blen]. pose proof (len_utf8_pos c). cbn [length]. lia. Qed.

Lemma byte_fallback_local : local BF.
Proof.
  split; [intros s H; injection H as <-; reflexivity|].
  intros P R S p q r x _ NR Ep Cp Eq Cq Er Ex. rewrite bf_ok in *.
  assert (p = bf P) as -> by congruence. assert (q = bf (P ++ R)) as -> by congruence. assert (r = bf R) as -> by congruence.
  assert (Hx : bf (R ++ S) = bf R ++ x) by congruence. clear Ep Eq Er Ex. f_equal.
  destruct (trail_run P) as (A & ts1 & b1 & -> & F1 & HA). destruct (lead_run S) as (ts3 & b3 & Y & -> & F3 & HY).
  assert (HP : forall ts bs Z, Forall2 byte_like ts bs -> starts_plain Z -> bf ((A ++ ts1) ++ ts ++ Z) = bf A ++ flushed (b1 ++ bs) ++ bf Z).
  { intros ts bs Z F HZ. rewrite <- app_assoc, (app_assoc ts1). apply bf_parts; auto. apply Forall2_app; auto. }
  destruct (lead_run R) as (ts2 & b2 & M & -> & F2 & HM). destruct M as [|m M].
  - (* only byte tokens *)
    rewrite app_nil_r in *. 
    assert (E1 : bf ((A ++ ts1) ++ ts2) = bf A ++ flushed (b1 ++ b2)).
    { pose proof (HP ts2 b2 [] F2 I) as X. rewrite !app_nil_r in X. exact X. }
    assert (E0 : bf (A ++ ts1) = bf A ++ flushed b1).
    { pose proof (bf_parts A ts1 b1 [] HA F1 I) as X. rewrite !app_nil_r in X. exact X. }
    assert (Er : bf ts2 = flushed b2).
    { pose proof (bf_parts [] ts2 b2 [] (or_introl eq_refl) F2 I) as X. rewrite !app_nil_r in X. exact X. }
    assert (Ers : bf (ts2 ++ ts3 ++ Y) = flushed (b2 ++ b3) ++ bf Y).
    { pose proof (bf_parts [] (ts2 ++ ts3) (b2 ++ b3) Y (or_introl eq_refl) (Forall2_app F2 F3) HY) as X. rewrite <- app_assoc in X. exact X. }
    rewrite E1 in *. rewrite E0 in Cp. destruct (flushed_complete _ _ Cp) as (t1 & S1 & X1 & _). destruct (flushed_complete _ _ Cq) as (t & St & X & Y1).
    subst b1. destruct (encode_prefix t1 t b2 S1 St (eq_sym X)) as (t2 & -> & -> & S2). rewrite Er, (flushed_valid t2 S2) in Hx. rewrite Ers in Hx.
    assert (N2 : t2 <> []) by (intros ->; inversion F2; subst; congruence).
    assert (C2 : complete t2). { intros u Eu. rewrite Y1, Eu in Cq. apply (Cq (bf A ++ t1 ++ u)). rewrite <- !app_assoc. reflexivity. }
    rewrite (app_assoc ts2 ts3 Y), (HP (ts2 ++ ts3) (encode_utf8 t2 ++ b3) Y (Forall2_app F2 F3) HY).
    destruct (flushed_cases (encode_utf8 t2 ++ b3)) as [(t3 & S3 & X3 & Y3)|[N3 Y3]].
    + destruct (encode_prefix t2 t3 b3 S2 S3 (eq_sym X3)) as (t4 & -> & -> & S4). rewrite Y3, <- app_assoc in Hx. apply app_inv_head in Hx. subst x.
      rewrite <- !encode_utf8_app, !flushed_valid by (repeat (apply Forall_app; split); auto). rewrite <- !app_assoc. reflexivity.
    + exfalso. rewrite Y3 in Hx. refine (prefix_of_repeat t2 x (bf Y) _ (eq_sym Hx) _ N2 C2). rewrite app_length. pose proof (str_len_bytes t2). lia.
  - (* a plain token *)
    destruct (trail_run (m :: M)) as (M' & ts4 & b4 & EM & F4 & HM'). rewrite EM in *.
    assert (NM : M' <> []). { intros ->. cbn [app] in EM, HM. subst ts4. inversion F4 as [|? ? ? ? B _]; subst. exact (HM _ B). }
    assert (SM : forall Z, starts_plain (M' ++ Z)). { intros Z. destruct M' as [|m' M']; [congruence|]. exact HM. }
    assert (E : forall ts bs Z, Forall2 byte_like ts bs -> starts_plain Z -> bf (M' ++ ts ++ Z) = bf M' ++ flushed bs ++ bf Z) by (intros; apply bf_parts; auto).
    assert (E4 : bf (M' ++ ts4) = bf M' ++ flushed b4). { pose proof (E ts4 b4 [] F4 I) as X. rewrite !app_nil_r in X. exact X. }
    assert (E5 : bf (M' ++ ts4 ++ ts3 ++ Y) = bf M' ++ flushed (b4 ++ b3) ++ bf Y). { rewrite (app_assoc ts4). apply E; auto. apply Forall2_app; auto. }
    rewrite (HP ts2 b2 (M' ++ ts4) F2 (SM _)). rewrite <- (app_assoc ts2), <- (app_assoc M') in Hx |- *. rewrite (HP ts2 b2 (M' ++ ts4 ++ ts3 ++ Y) F2 (SM _)).
    pose proof (bf_parts [] ts2 b2 (M' ++ ts4) (or_introl eq_refl) F2 (SM _)) as X1. pose proof (bf_parts [] ts2 b2 (M' ++ ts4 ++ ts3 ++ Y) (or_introl eq_refl) F2 (SM _)) as X2.
    cbn [app] in X1, X2. rewrite X1, X2 in Hx. rewrite E4, E5 in *. change (bf []) with (@nil N) in Hx. cbn [app] in Hx. rewrite <- !app_assoc in Hx |- *.
    apply app_inv_head in Hx. apply app_inv_head in Hx. rewrite Hx, <- ?app_assoc. reflexivity.
Qed.
