(** C60 (BERT) and C68 (all the normalizers). *)
From Coq Require Import ZArith.
From Verif Require Import Base ListFacts StrBytes Utf8 NormModel NormSpec NormProofs NormProofs2 NormProofs5 NormProofs6
  PatternModel PatternSpec PatternProofs NormProps ByteLevelModel DecodersModel DecodersSpec DecodersProofs2 NormalizersModel NormalizersSpec
  NormalizersProofs NormalizersProofs2.

(** ** C68 *)
(** Every normalizer, on every text whose characters all come from somewhere:
    it succeeds, does what its specification says character by character, leaves
    the original text alone and gives back a text of the same kind. *)
Theorem C68_normalizer : forall T n ns,
  tables_ok T -> usable n -> aligned ns -> solid ns -> text (n_normalized ns) ->
  exists ns' cal cal',
    normalize T n ns = Ok ns' /\ same_source ns ns' /\ shows ns cal /\ shows ns' cal' /\ normalizes T n cal cal' /\
    aligned ns' /\ solid ns' /\ text (n_normalized ns').
Proof.
  intros T n ns TO U A S TX. apply aligned_show in A. destruct A as (orig & cal & sh & -> & W). apply solid_show in S.
  destruct (normalize_step T TO n U orig cal sh (conj W (conj S TX))) as (cal' & E & (W' & S' & T') & R).
  exists (show orig cal' sh), cal, cal'. split; [exact E|]. split; [split; reflexivity|]. split; [split; reflexivity|]. split; [split; reflexivity|].
  split; [exact R|]. split; [apply show_aligned; exact W'|]. split; [apply solid_show; exact S'|exact T'].
Qed.

(** In particular on a text as the tokenizer receives it. *)
Theorem C68_text : forall T n s,
  tables_ok T -> usable n -> text s ->
  exists ns' cal', normalize T n (nfrom s) = Ok ns' /\ n_original ns' = s /\ shows ns' cal' /\ aligned ns' /\ solid ns' /\
    exists cal, ctext cal = s /\ Forall (fun ca : char * (nat * nat) => str_get s (fst (snd ca)) (snd (snd ca)) = Some [fst ca]) cal /\ normalizes T n cal cal'.
Proof.
  intros T n s TO U TX.
  assert (A : aligned (nfrom s)) by apply nfrom_aligned.
  assert (S : solid (nfrom s)) by (rewrite nfrom_show; apply solid_show, id_cal_solid).
  destruct (C68_normalizer T n (nfrom s) TO U A S TX) as (ns' & cal & cal' & E & [O _] & Sh & Sh' & R & A' & S' & _).
  exists ns', cal'. split; [exact E|]. split; [symmetry; exact O|]. split; [exact Sh'|]. split; [exact A'|]. split; [exact S'|]. exists cal.
  destruct Sh as [S1 S2]. split; [symmetry; exact S1|]. split; [|exact R].
  assert (EC : cal = id_cal 0 s).
  { apply shows_inj; [rewrite <- S1; pose proof (nfrom_show s) as X; apply (f_equal n_normalized) in X; exact X|].
    rewrite <- S2. pose proof (nfrom_show s) as X. apply (f_equal n_alignments) in X. exact X. }
  subst cal. clear. assert (G : forall q p, Forall (fun ca : char * (nat * nat) => str_get (p ++ q) (fst (snd ca)) (snd (snd ca)) = Some [fst ca]) (id_cal (blen p) q)).
  { induction q as [|c q IH]; intros p; [constructor|]. cbn [id_cal]. constructor.
    - cbn [fst snd]. replace (blen p + len_utf8 c) with (blen p + blen [c]) by (cbn [blen]; lia). change (p ++ c :: q) with (p ++ [c] ++ q). apply str_get_app.
    - specialize (IH (p ++ [c])). rewrite <- app_assoc in IH. rewrite blen_app in IH. cbn [blen app] in IH. rewrite Nat.add_0_r in IH. exact IH. }
  exact (G s []).
Qed.

Lemma engine_weaken s a b ms : a <= b -> engine_matches s b ms -> engine_matches s a ms.
Proof. destruct ms as [|[x y] ms]; [auto|]. cbn [engine_matches]. intros L (H1 & H2). split; [lia|exact H2]. Qed.

(** The pattern given as a string (not empty) is always usable. *)
Theorem C68_literal : forall pat content, pat <> [] -> text content -> usable (NReplace (literal_scan pat 0 0) content).
Proof.
  intros pat content N TC. split; [exact TC|].
  assert (G : forall s p k, k <= length s -> engine_matches (p ++ s) (blen p + blen (firstn k s)) (literal_scan pat (blen p) k s)).
  { induction s as [|c s IH]; intros p k L; [destruct k; exact I|]. cbn [literal_scan].
    assert (P : p ++ c :: s = (p ++ [c]) ++ s) by (rewrite <- app_assoc; reflexivity).
    assert (B : blen p + len_utf8 c = blen (p ++ [c])) by (rewrite blen_app; cbn [blen]; lia).
    destruct k as [|k].
    - cbn [firstn blen]. rewrite Nat.add_0_r. destruct (is_prefix pat (c :: s)) eqn:E.
      + apply is_prefix_spec in E. destruct E as (r & E). cbn [engine_matches]. split; [lia|]. split; [lia|].
        split; [apply is_boundary_spec; exists p, (c :: s); auto|].
        split; [apply is_boundary_spec; exists (p ++ pat), r; rewrite <- app_assoc, <- E, blen_app; auto|].
        destruct pat as [|d pat']; [congruence|]. cbn [app] in E. injection E as <- E. cbn [length]. rewrite Nat.sub_succ, Nat.sub_0_r, P, B. cbn [blen].
        specialize (IH (p ++ [c]) (length pat')). rewrite E in IH. rewrite firstn_app, firstn_all, Nat.sub_diag in IH. cbn [firstn] in IH. rewrite app_nil_r in IH.
        rewrite E. replace (blen p + (len_utf8 c + blen pat')) with (blen (p ++ [c]) + blen pat') by (rewrite <- B; lia). apply IH. rewrite app_length. lia.
      + rewrite B, P. specialize (IH (p ++ [c]) 0 ltac:(lia)). cbn [firstn blen] in IH. rewrite Nat.add_0_r, <- B in IH. rewrite <- B.
        eapply engine_weaken; [|exact IH]. lia.
    - cbn [firstn blen length] in *. rewrite B, P. specialize (IH (p ++ [c]) k ltac:(lia)). rewrite <- B in IH |- *. rewrite <- Nat.add_assoc in IH. exact IH. }
  intros s. split; [exact (G s [] 0 ltac:(lia))|]. specialize (G s [] 0 ltac:(lia)). cbn [app blen firstn Nat.add] in G.
  destruct (literal_scan pat 0 0 s) as [|[[|a] [|b]] ms] eqn:E; auto. exfalso. clear G.
  assert (H : forall s b k, 0 < blen pat -> Forall (fun m : nat * nat => fst m < snd m) (literal_scan pat b k s)).
  { clear. induction s as [|c s IH]; intros b k L; [constructor|]. cbn [literal_scan]. destruct k; [|auto]. destruct (is_prefix pat (c :: s)); [|auto]. constructor; [cbn [fst snd]; lia|auto]. }
  assert (P : 0 < blen pat) by (destruct pat as [|d pat']; [congruence|]; cbn [blen]; pose proof (len_utf8_pos d); lia).
  specialize (H s 0 0 P). rewrite E in H. inversion H as [|? ? H1 _]; subst. cbn in H1. lia.
Qed.

(** Tables for the examples: "É" decomposes into "E" and an acute accent, an
    ideograph of the compatibility block into another one; capitals are lowercased. *)
Definition ex_decompose (c : char) : list (char * Z) :=
  if N.eqb c 201 then [(69%N, 0%Z); (769%N, 1%Z)] else if N.eqb c 63744 then [(35912%N, 0%Z)] else [(c, 0%Z)].
Definition ex_small (c : char) : str := if between 65 90 c then [(c + 32)%N] else [c].
Definition ex_form (s : str) : list (char * Z) := flat_map ex_decompose s.
Definition ex_tables : tables :=
  mkTables ex_form ex_form ex_form ex_form ex_small (fun c => N.eqb c 32 || between 9 13 c) (fun c => between 0 31 c) (N.eqb 769) (N.eqb 769).

Example C68_tables_example : tables_ok ex_tables.
Proof.
  assert (F : form_ok ex_form).
  { intros s TX. unfold ex_form. split; [|split].
    - destruct s as [|c s]; [exact I|]. cbn [flat_map]. unfold ex_decompose at 1. destruct (N.eqb c 201); [cbn; lia|]. destruct (N.eqb c 63744); cbn; lia.
    - clear TX. induction s as [|c s IH]; [exact I|]. cbn [flat_map length]. unfold ex_decompose at 1.
      destruct (N.eqb c 201); [|destruct (N.eqb c 63744)]; cbn [app changes_fit Z.ltb Z.compare Z.opp Z.to_nat Nat.sub]; (split; [lia|]); rewrite ?Nat.sub_0_r; exact IH.
    - unfold text in *. rewrite flat_map_concat_map, concat_map, map_map. apply Forall_concat. apply Forall_map. eapply Forall_impl; [|exact TX]. cbn beta. intros c H.
      unfold ex_decompose. destruct (N.eqb c 201); [repeat constructor|]. destruct (N.eqb c 63744); repeat constructor. exact H. }
  constructor; try exact F. intros c. cbn [u_lower ex_tables]. unfold ex_small. split.
  - destruct (between 65 90 c); discriminate.
  - intros H. destruct (between 65 90 c) eqn:E; repeat constructor; [|exact H]. unfold between in E. unfold is_scalar. lia.
Qed.

(** "É!" through NFD, accent removal, lowercasing, a replacement and a prefix. *)
Example C68_example :
  let n := NSequence [NNFD; NStripAccents; NLowercase; NReplace (literal_scan [33%N] 0 0) [63; 63]%N; NPrepend [95]%N; NStrip true true] in
  usable n /\
  exists ns', normalize ex_tables n (nfrom [32; 201; 33]%N) = Ok ns' /\ n_normalized ns' = [95; 32; 101; 63; 63]%N /\
    n_alignments ns' = [(0, 1); (0, 1); (1, 3); (3, 4); (3, 4)].
Proof.
  split.
  - cbn [usable]. repeat (split; [first [exact I|apply C68_literal; [discriminate|repeat constructor]|split; [discriminate|repeat constructor]]|]). exact I.
  - eexists. split; [vm_compute; reflexivity|]. split; [vm_compute; reflexivity|vm_compute; reflexivity].
Qed.

(** A chart: "™" becomes "TM", the following control character disappears. *)
Definition ex_chart (s : str) : option str :=
  if str_eqb s [8482%N] then Some [84; 77]%N else if str_eqb s [30%N] then Some [] else None.
Definition ex_graphemes (s : str) : list str := map (fun c => [c]) s.
Example C68_precompiled_example : usable (NPrecompiled ex_chart ex_graphemes) /\
  exists ns', normalize ex_tables (NPrecompiled ex_chart ex_graphemes) (nfrom [8482; 30; 103]%N) = Ok ns' /\ n_normalized ns' = [84; 77; 103]%N.
Proof.
  split; [split|].
  - intros s. unfold ex_graphemes. split; [induction s as [|c s IH]; [reflexivity|cbn [map concat app]; rewrite IH; reflexivity]|].
    apply Forall_forall. intros g H. apply in_map_iff in H. destruct H as (c & <- & _). discriminate.
  - intros s x _. unfold ex_chart. destruct (str_eqb s [8482%N]); [intros H; injection H as <-; repeat constructor|]. destruct (str_eqb s [30%N]); [intros H; injection H as <-; constructor|discriminate].
  - eexists. split; [vm_compute; reflexivity|vm_compute; reflexivity].
Qed.

(** The hypotheses are needed.  [Prepend] with an empty prefix does not change
    the text, but lowercasing after it fails. *)
Theorem C68_prepend_empty_refuted : exists T s, tables_ok T /\ text s /\
  normalize T (NSequence [NPrepend []; NLowercase]) (nfrom s) = Panic.
Proof. exists ex_tables, [97]%N. split; [exact C68_tables_example|]. split; [repeat constructor|]. vm_compute. reflexivity. Qed.

(** So does an expression matching the empty start of the text ("^", to put
    something in front). *)
Theorem C68_replace_start_refuted : exists T find content s, tables_ok T /\ (forall s, engine_matches s 0 (find s)) /\ text content /\ text s /\
  normalize T (NSequence [NReplace find content; NLowercase]) (nfrom s) = Panic.
Proof.
  exists ex_tables, (fun _ => [(0, 0)]), [95]%N, [97]%N. split; [exact C68_tables_example|]. split; [intros s; cbn; rewrite is_boundary_0; repeat split; lia|].
  split; [repeat constructor|]. split; [repeat constructor|]. vm_compute. reflexivity.
Qed.

(** A chart deleting the beginning of the text shifts the ranges: what is left
    is attributed to the deleted characters. *)
Theorem C68_precompiled_leading_refuted : exists chart graphemes s ns', usable (NPrecompiled chart graphemes) /\
  normalize ex_tables (NPrecompiled chart graphemes) (nfrom s) = Ok ns' /\ s = [30; 97; 98]%N /\ n_normalized ns' = [97; 98]%N /\ n_alignments ns' = [(0, 1); (1, 2)].
Proof.
  exists ex_chart, ex_graphemes, [30; 97; 98]%N. eexists. split; [exact (proj1 C68_precompiled_example)|]. split; [vm_compute; reflexivity|]. split; [reflexivity|]. split; vm_compute; reflexivity.
Qed.

(** ** C60 *)
Definition handled (c : char) : Prop := ideograph c /\ ~ forgotten c.
Definition handled_dec (c : char) : {handled c} + {~ handled c}.
Proof. destruct (is_chinese_char c) eqn:E; [left|right]; unfold handled; rewrite <- chinese_spec; congruence. Defined.

Lemma space_not_handled : ~ handled 32%N.
Proof. unfold handled. rewrite <- chinese_spec. discriminate. Qed.

Lemma isolate_text cal cal' : bert_isolate cal cal' -> ctext cal' = spaced handled handled_dec (ctext cal).
Proof.
  intros (f & F1 & F2 & ->). rewrite ctext_expanding. unfold spaced. apply flat_map_ext. intros c. destruct (handled_dec c) as [[H1 H2]|H]; [auto|].
  apply F2. unfold handled in H. destruct (is_chinese_char c) eqn:E; [apply chinese_spec in E; tauto|]. assert (N : ~ (ideograph c /\ ~ forgotten c)) by (rewrite <- chinese_spec; congruence).
  unfold forgotten in *. destruct (N.leb_spec 0x2B820 c); [destruct (N.leb_spec c 0x2B91F); [right; lia|]|]; left; intros X; apply N; (split; [exact X|lia]).
Qed.

Lemma when_keeps (P : str -> Prop) b (R : ranged -> ranged -> Prop) c c' : (b = true -> R c c' -> P (ctext c')) -> P (ctext c) -> when b R c c' -> P (ctext c').
Proof. destruct b; cbn [when]; intros H1 H2 H3; [auto|]. rewrite H3. exact H2. Qed.

Lemma clean_image T cal cal' : bert_clean T cal cal' -> Forall (fun d => exists c, In c (ctext cal) /\ c <> 0%N /\ c <> 0xFFFD%N /\ ~ control T c /\ ((blank T c /\ d = 32%N) \/ (~ blank T c /\ d = c))) (ctext cal').
Proof.
  intros (keep & sp & K & B1 & B2 & ->). rewrite ctext_rewriting, ctext_keeping. apply Forall_forall. intros d Hd. apply in_map_iff in Hd. destruct Hd as (c & <- & Hc). apply filter_In in Hc. destruct Hc as [Hc Hk].
  apply K in Hk. exists c. split; [exact Hc|]. split; [apply Hk|]. split; [apply Hk|]. split; [apply Hk|]. destruct (bert_whitespace T c) eqn:E.
  - left. apply white_spec in E. auto.
  - right. assert (N : ~ blank T c) by (rewrite <- white_spec; congruence). auto.
Qed.
Lemma clean_text_ok T cal cal' : bert_clean T cal cal' -> text (ctext cal) -> text (ctext cal').
Proof.
  intros H TX. apply clean_image in H. unfold text in *. rewrite Forall_forall in *. intros d Hd. destruct (H d Hd) as (c & Hc & _ & _ & _ & [[_ ->]|[_ ->]]); [reflexivity|auto].
Qed.

(** Every ideograph of the handled blocks stands between two spaces in the
    result, whatever the other options. *)
Theorem C60_isolated : forall T clean strip lower ns,
  tables_ok T -> aligned ns -> solid ns -> text (n_normalized ns) ->
  (strip = Some true \/ lower = true -> cjk_tables T (fun c => ideograph c /\ ~ forgotten c)) ->
  exists ns', normalize T (NBert clean true strip lower) ns = Ok ns' /\
    isolated (fun c => ideograph c /\ ~ forgotten c) (n_normalized ns').
Proof.
  intros T clean strip lower ns TO A S TX C. destruct (C68_normalizer T (NBert clean true strip lower) ns TO I A S TX) as (ns' & cal & cal' & E & _ & [Sh0 _] & [Sh _] & R & _).
  rewrite Sh0 in TX. exists ns'. split; [exact E|]. rewrite Sh. clear E Sh Sh0. inversion R as [? ? ? ? c0 c1 c2 c3 c4 R1 R2 R3 R4| | | | | | | | | | | | | | |]; subst.
  cbn [when] in R2. pose proof (isolate_text _ _ R2) as E2. change (isolated handled (ctext cal')).
  assert (I2 : isolated handled (ctext c2)) by (rewrite E2; apply spaced_isolated, space_not_handled).
  assert (I3 : isolated handled (ctext c3)).
  { destruct (match strip with Some b => b | None => lower end) eqn:B; cbn [when] in R3; [|rewrite R3; exact I2]. rewrite R3, ctext_keeping.
    assert (CT : cjk_tables T handled) by (apply C; destruct strip as [[]|]; auto; discriminate).
    apply isolated_filter; [rewrite (cj_space_mark T handled CT); reflexivity|].
    assert (TX2 : text (ctext c2)).
    { assert (X : forall s, text s -> text (spaced handled handled_dec s)).
      { intros s H. unfold text, spaced in *. apply Forall_flat_map. eapply Forall_impl; [|exact H]. cbn beta. intros c Hc. destruct (handled_dec c); repeat constructor; exact Hc. }
      rewrite E2. apply X. apply (when_keeps text clean (bert_clean T) cal c1); [intros _ R1'; exact (clean_text_ok T _ _ R1' TX)|exact TX|exact R1]. }
    unfold formed. rewrite changed_text. 2: { destruct (ok_nfd T TO (ctext c2) TX2) as (_ & F & _). rewrite length_ctext in F. exact F. }
    rewrite E2. apply (spaced_nfd handled handled_dec T space_not_handled CT). }
  destruct lower; cbn [when] in R4; [|rewrite R4; exact I3]. rewrite R4, ctext_expanding.
  assert (CT : cjk_tables T handled) by (apply C; auto).
  apply (isolated_lower handled handled_dec); [apply (cj_space_lower T handled CT)|apply (cj_lower_one T handled CT)|apply (cj_lower_none T handled CT)|exact I3].
Qed.

(** With [clean_text], only clean characters are left (the tables are asked
    something only when accents or case are changed). *)
Theorem C60_clean : forall T cjk strip lower ns,
  tables_ok T -> aligned ns -> solid ns -> text (n_normalized ns) ->
  clean_char T 32%N ->
  (strip = Some true \/ (strip = None /\ lower = true) -> forall s, Forall (clean_char T) s -> Forall (clean_char T) (nfd_text T s)) ->
  (lower = true -> forall c, clean_char T c -> Forall (clean_char T) (u_lower T c)) ->
  exists ns', normalize T (NBert true cjk strip lower) ns = Ok ns' /\ Forall (clean_char T) (n_normalized ns').
Proof.
  intros T cjk strip lower ns TO A S TX SP CN CL. destruct (C68_normalizer T (NBert true cjk strip lower) ns TO I A S TX) as (ns' & cal & cal' & E & _ & [Sh0 _] & [Sh _] & R & _).
  rewrite Sh0 in TX. exists ns'. split; [exact E|]. rewrite Sh. clear E Sh Sh0. inversion R as [? ? ? ? c0 c1 c2 c3 c4 R1 R2 R3 R4| | | | | | | | | | | | | | |]; subst.
  cbn [when] in R1. pose proof (clean_text_ok T _ _ R1 TX) as TX1.
  assert (K1 : Forall (clean_char T) (ctext c1)).
  { apply clean_image in R1. eapply Forall_impl; [|exact R1]. cbn beta. intros d (c & _ & H1 & H2 & H3 & [[_ ->]|[H4 ->]]); [exact SP|]. split; [exact H1|]. split; [exact H2|]. split; [exact H3|]. tauto. }
  assert (K2 : Forall (clean_char T) (ctext c2) /\ text (ctext c2)).
  { split.
    - apply (when_keeps (Forall (clean_char T)) cjk bert_isolate c1); [intros _ H|exact K1|exact R2]. rewrite (isolate_text _ _ H). unfold spaced. apply Forall_flat_map. eapply Forall_impl; [|exact K1].
      cbn beta. intros c Hc. destruct (handled_dec c); repeat (apply Forall_cons; [first [assumption|reflexivity]|]); apply Forall_nil.
    - apply (when_keeps text cjk bert_isolate c1); [intros _ H|exact TX1|exact R2]. rewrite (isolate_text _ _ H). unfold text, spaced in *. apply Forall_flat_map. eapply Forall_impl; [|exact TX1].
      cbn beta. intros c Hc. destruct (handled_dec c); repeat (apply Forall_cons; [first [assumption|reflexivity]|]); apply Forall_nil. }
  destruct K2 as [K2 TX2].
  assert (K3 : Forall (clean_char T) (ctext c3)).
  { destruct (match strip with Some b => b | None => lower end) eqn:B; cbn [when] in R3; [|rewrite R3; exact K2]. rewrite R3, ctext_keeping.
    assert (X : Forall (clean_char T) (nfd_text T (ctext c2))) by (apply CN; [destruct strip as [[]|]; auto; discriminate|exact K2]).
    unfold formed. rewrite changed_text. 2: { destruct (ok_nfd T TO (ctext c2) TX2) as (_ & F & _). rewrite length_ctext in F. exact F. }
    unfold nfd_text in X. rewrite Forall_forall in *. intros c Hc. apply filter_In in Hc. apply X, Hc. }
  destruct lower; cbn [when] in R4; [|rewrite R4; exact K3]. rewrite R4, ctext_expanding. apply Forall_flat_map. eapply Forall_impl; [|exact K3]. cbn beta. apply CL. reflexivity.
Qed.

(** The sixth block starts at U+2B820, the code has U+2B920: the ideographs in
    between are left alone. *)
Theorem C60_extension_e_refuted : exists c, ideograph c /\
  forall T, exists ns', normalize T (NBert false true (Some false) false) (nfrom [97; c; 98]%N) = Ok ns' /\ n_normalized ns' = [97; c; 98]%N.
Proof.
  exists 0x2B820%N. split; [exists 0x2B820%N, 0x2CEAF%N; split; [cbn [In cjk_blocks]; auto 10|lia]|]. intros T. eexists. split; [vm_compute; reflexivity|reflexivity].
Qed.
(** All of them. *)
Theorem C60_forgotten : forall c, is_chinese_char c = true <-> ideograph c /\ ~ (0x2B820 <= c <= 0x2B91F)%N.
Proof. exact chinese_spec. Qed.

Example C60_tables_example : cjk_tables ex_tables (fun c => ideograph c /\ ~ forgotten c) /\ clean_char ex_tables 32%N /\
  (forall s, Forall (clean_char ex_tables) s -> Forall (clean_char ex_tables) (nfd_text ex_tables s)) /\
  (forall c, clean_char ex_tables c -> Forall (clean_char ex_tables) (u_lower ex_tables c)).
Proof.
  assert (CL : forall c, (32 < c)%N -> c <> 0xFFFD%N -> clean_char ex_tables c).
  { intros c L N. unfold clean_char, control, blank. cbn [u_other u_white ex_tables]. unfold between. rewrite orb_true_iff, !andb_true_iff, N.eqb_eq, !N.leb_le. lia. }
  split; [|split; [|split]].
  - assert (NF : forall c, nfd_text ex_tables [c] = map fst (ex_decompose c)) by (intros c; unfold nfd_text; cbn [u_nfd ex_tables ex_form]; unfold ex_form; cbn [flat_map]; rewrite app_nil_r; reflexivity).
    assert (NS : forall s, nfd_text ex_tables s = flat_map (fun c => map fst (ex_decompose c)) s).
    { unfold nfd_text. cbn [u_nfd ex_tables]. unfold ex_form. induction s as [|c s IH]; [reflexivity|]. cbn [flat_map]. rewrite map_app, IH. reflexivity. }
    constructor.
    + intros p q. rewrite !NS, flat_map_app. reflexivity.
    + intros c [H _]. rewrite NF. unfold ex_decompose. destruct (N.eqb_spec c 201); [|destruct (N.eqb c 63744); eexists; reflexivity].
      subst. destruct H as (a & b & H & L). unfold cjk_blocks in H. cbn [In] in H. decompose [or] H; try contradiction; match goal with E : (_, _) = (_, _) |- _ => injection E as <- <- end; lia.
    + intros s F. rewrite NS. apply Forall_flat_map. eapply Forall_impl; [|exact F]. cbn beta. intros c N. unfold ex_decompose. destruct (N.eqb_spec c 201).
      * cbn [map fst]. repeat constructor; rewrite <- chinese_spec; discriminate.
      * destruct (N.eqb_spec c 63744); [subst; exfalso; apply N; apply chinese_spec; reflexivity|]. repeat constructor. exact N.
    + reflexivity.
    + reflexivity.
    + intros c H. apply chinese_spec in H. cbn [u_lower ex_tables]. unfold ex_small. destruct (between 65 90 c) eqn:E; [|reflexivity]. exfalso. unfold is_chinese_char, between in *. lia.
    + intros c H. cbn [u_lower ex_tables]. unfold ex_small. destruct (between 65 90 c) eqn:E; repeat constructor; [|exact H]. rewrite <- chinese_spec. unfold is_chinese_char, between in *. lia.
  - unfold clean_char, control, blank. cbn [u_other u_white ex_tables]. unfold between. cbn. repeat split; try discriminate; intuition discriminate.
  - intros s F. unfold nfd_text. cbn [u_nfd ex_tables]. unfold ex_form. induction F as [|c s H _ IH]; [constructor|]. cbn [flat_map]. rewrite map_app. apply Forall_app. split; [|exact IH].
    unfold ex_decompose. destruct (N.eqb c 201); [cbn [map fst]; repeat (apply Forall_cons; [apply CL; (lia || discriminate)|]); apply Forall_nil|]. destruct (N.eqb c 63744); [cbn [map fst]; repeat (apply Forall_cons; [apply CL; (lia || discriminate)|]); apply Forall_nil|].
    apply Forall_cons; [exact H|apply Forall_nil].
  - intros c H. cbn [u_lower ex_tables]. unfold ex_small. destruct (between 65 90 c) eqn:E; (apply Forall_cons; [|apply Forall_nil]); [|exact H]. unfold between in E. apply CL; lia.
Qed.

(** "A豈<BEL>É<TAB>" *)
Example C60_example :
  exists ns', normalize ex_tables (NBert true true None true) (nfrom [65; 63744; 7; 201; 9]%N) = Ok ns' /\
    n_normalized ns' = [97; 32; 35912; 32; 101; 32]%N /\ n_alignments ns' = [(0, 1); (1, 4); (1, 4); (1, 4); (1, 4); (1, 4); (5, 7); (7, 8)].
Proof. eexists. split; [vm_compute; reflexivity|]. split; vm_compute; reflexivity. Qed.
