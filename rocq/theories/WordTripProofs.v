(** Proofs of the round trip of tokenizers that cut texts into words (C89). *)
From Verif Require Import Base ListFacts StrBytes Utf8 AMap EncodingModel EncodingSpec NormModel NormSpec NormProofs NormProofs2 NormProofs5 PatternModel
  ProcessorsModel ProcessorsSpec DecodersModel DecodersSpec DecodersProofs DecodersProofs2 DecodersProofs3 DecodersProps AddedModel AddedSpec AddedProofs AddedProofs2 AddedProofs3 AddedProofs4 AddedProps
  TokenizerModel PreTokModel PreTokSpec PreTokProofs PreTokProps PreTokenizersModel PreTokenizersSpec PreTokenizersProofs PreTokenizersProps NormalizersModel NormalizersSpec NormalizersProps
  EndToEndSpec EndToEndProofs EndToEndProps RoundTripModel RoundTripSpec RoundTripProofs SpmTripModel SpmTripSpec SpmTripProofs MetaTripSpec MetaTripProofs
  WordPieceModel WordPieceSpec WordPieceProps BpeModel BpeProofs WordTripModel WordTripSpec.

(** ** The slice of a fresh text that is all of it *)
Lemma last_id_cal : forall s b c, snd (last_al (b, b + len_utf8 c) (id_cal (b + len_utf8 c) s)) = b + len_utf8 c + blen s.
Proof.
  induction s as [|d s IH]; intros b c; [cbn; lia|].
  cbn [id_cal blen]. unfold last_al in *. cbn [map snd].
  assert (Q : forall A (x d1 d2 : A) l, last (x :: l) d1 = last (x :: l) d2).
  { intros A x d1 d2 l. revert x. induction l as [|y l IHl]; intros x; [reflexivity|]. change (last (y :: l) d1 = last (y :: l) d2). apply IHl. }
  specialize (IH (b + len_utf8 c) d). 
  assert (E : forall A (x d1 : A) l, last (x :: l) d1 = last l x).
  { intros A x d1 l. revert x. induction l as [|y l IHl]; intros x; [reflexivity|]. change (last (y :: l) d1 = last (y :: l) x). apply Q. }
  rewrite E, IH. lia.
Qed.

Lemma shift_cal_0 cal : shift_cal 0 cal = cal.
Proof.
  unfold shift_cal. rewrite <- (map_id cal) at 2. apply map_ext. intros [c [a b]]. cbn. unfold shift_al. cbn [fst snd]. rewrite !Nat.sub_0_r. reflexivity.
Qed.

Lemma slice_whole s : n_slice (nfrom s) (rn 0 (blen s)) = Ok (nfrom s).
Proof.
  destruct s as [|c s]; [reflexivity|]. rewrite nfrom_show. cbn [id_cal].
  pose proof (wf_id_cal (c :: s)) as W. cbn [id_cal] in W.
  pose proof (slice_normalized (c :: s) 0 [] c (0, 0 + len_utf8 c) (id_cal (0 + len_utf8 c) s) []) as H. cbn [app] in H. rewrite app_nil_r in H.
  destruct (H W) as (u & piece & v & Eo & Eu & Ep & _ & Hs). cbn [fst] in Eu. rewrite last_id_cal in Ep.
  assert (u = []) as -> by (destruct u as [|x u]; [reflexivity|cbn [blen] in Eu; pose proof (len_utf8_pos x); lia]).
  assert (v = []) as ->.
  { pose proof (f_equal blen Eo) as B. cbn [app] in B. rewrite blen_app in B. cbn [blen] in B, Ep. destruct v as [|x v]; [reflexivity|]. cbn [blen] in B. pose proof (len_utf8_pos x). lia. }
  cbn [app] in Eo. rewrite app_nil_r in Eo. subst piece. cbn [blen] in Hs. rewrite shift_cal_0 in Hs. cbn [ctext map blen fst snd] in Hs.
  change (map fst (id_cal (0 + len_utf8 c) s)) with (ctext (id_cal (0 + len_utf8 c) s)) in Hs. rewrite ctext_id_cal in Hs. exact Hs.
Qed.

(** ** The only section of a text without added tokens *)
Lemma word_norm TN nz ns : tables_ok TN -> NormalizersSpec.usable nz -> live ns ->
  live (run_normalizer TN nz ns) /\ same_source ns (run_normalizer TN nz ns).
Proof.
  intros TO U (A & S & T). destruct (C68_normalizer TN nz ns TO U A S T) as (ns' & cal & cal' & E & Q & _ & _ & _ & A' & S' & T').
  unfold run_normalizer. rewrite E. split; [split; [exact A'|split; assumption]|exact Q].
Qed.

Lemma word_extract sp wd build mv av offered taken TN nz s :
  tables_ok TN -> NormalizersSpec.usable nz -> model_ok mv -> dense mv -> added_history build mv no_norm av offered taken -> av_ntrie av = None -> no_strips av ->
  text s -> none_in offered s ->
  exists pt, extract_and_normalize sp wd av (run_normalizer TN nz) s = Ok pt /\ inside_history s pt /\
    match normal_text TN nz s with
    | [] => pt_splits pt = []
    | _ => exists z, pt_splits pt = [z] /\ sp_tokens z = None /\ n_normalized (sp_norm z) = normal_text TN nz s /\ live (sp_norm z)
    end.
Proof.
  intros TO U MO D H NT NS TX NI. pose proof (tries_history _ _ _ _ _ _ MO D H) as TI. pose proof (tries_known _ _ TI) as [K1 K2]. pose proof (history_from _ _ _ _ _ _ H) as FO. destruct TI as [T1 T2].
  assert (S1 : safe_trie sp av (av_trie av)) by (intros pats P; split; [apply no_strips_safe; exact NS|auto]).
  assert (S2 : safe_trie sp av None) by (intros pats P; discriminate).
  assert (FM : find_matches sp wd av s (av_trie av) = Ok [(None, (0, blen s))]) by (eapply no_match_in; eauto).
  assert (E1 : split_with_indices sp wd av (av_trie av) (nfrom s) = Ok [mkSplit (nfrom s) None]).
  { unfold split_with_indices. change (n_normalized (nfrom s)) with s. rewrite FM. cbn [bind map_res]. unfold token_split. cbn [fst snd]. rewrite slice_whole. reflexivity. }
  assert (P1 : pt_split (fun _ ns => split_with_indices sp wd av (av_trie av) ns) (pre_from s) = Ok (mkPre s (keep_nonempty [mkSplit (nfrom s) None]))).
  { unfold pt_split. cbn [pre_from pre_from_norm pt_splits split_loop sp_tokens sp_norm pt_original]. rewrite E1. cbn [bind]. rewrite app_nil_r. reflexivity. }
  unfold extract_and_normalize. rewrite P1. cbn [bind]. rewrite NT.
  destruct s as [|c0 s0] eqn:Es.
  - exists (mkPre [] []). split; [reflexivity|]. split; [|reflexivity].
    eapply in_split; [apply (in_start [] (nfrom [])); [apply nfrom_aligned|reflexivity|reflexivity]| |exact P1].
    intros i ns new x A E HX _. cbv beta in E. exact (split_stays_inside _ _ _ _ _ _ _ A S1 E HX).
  - rewrite <- Es in *. assert (NZ : s <> []) by congruence.
    assert (L0 : live (nfrom s)) by (split; [apply nfrom_aligned|split; [apply nfrom_solid|exact TX]]).
    destruct (word_norm TN nz (nfrom s) TO U L0) as [L1 [O1 O2]].
    assert (NX : normal_text TN nz s = n_normalized (run_normalizer TN nz (nfrom s))) by (rewrite Es; reflexivity). rewrite NX.
    set (ns1 := run_normalizer TN nz (nfrom s)) in *.
    assert (KY : keep_nonempty [mkSplit (nfrom s) None] = [mkSplit (nfrom s) None]) by (rewrite Es; reflexivity). rewrite KY.
    destruct (split_with_indices_cuts sp wd av None ns1 (proj1 L1) S2) as (l & sps & EM & ES & FS & C).
    assert (l = [(None, (0, blen (n_normalized ns1)))]) as ->. { unfold find_matches in EM. destruct (n_normalized ns1); cbn [is_nil] in EM; injection EM as <-; reflexivity. }
    pose proof (cut_live _ _ L1 C) as FL. inversion FS as [|? y ? ? [Y1 Y2] FS']; subst sps l. inversion FS'; subst l'. cbn [fst snd] in *. rewrite str_get_full in Y1. injection Y1 as Y1.
    cbn [map] in FL. inversion FL as [|? ? LY _]; subst.
    exists (mkPre (c0 :: s0) (keep_nonempty [y])). split; [|split].
    + unfold pt_split. cbn [pt_splits split_loop sp_tokens sp_norm pt_original]. fold ns1. rewrite ES. cbn [bind]. rewrite app_nil_r. reflexivity.
    + eapply (in_split _ _ (fun _ ns => split_with_indices sp wd av None ns) (pre_from_norm ns1)).
      * apply in_start; [apply L1|symmetry; exact O1|symmetry; exact O2].
      * intros i ns new x A E HX _. cbv beta in E. exact (split_stays_inside _ _ _ _ _ _ _ A S2 E HX).
      * unfold pt_split. cbn [pre_from_norm pt_splits split_loop sp_tokens sp_norm pt_original]. rewrite ES. cbn [bind]. rewrite app_nil_r. rewrite <- O1. reflexivity.
    + cbn [pt_splits]. unfold keep_nonempty. cbn [filter]. rewrite <- Y1. destruct (n_normalized ns1) as [|c x] eqn:E; cbn [is_nil negb]; [reflexivity|].
      exists y. split; [reflexivity|]. split; [exact Y2|]. split; [symmetry; exact Y1|exact LY].
Qed.

(** ** The ids of a text *)
Lemma answered_words mv answer build av offered taken : model_ok mv -> dense mv -> added_history build mv no_norm av offered taken ->
  forall g, Forall (fun sp => sp_tokens sp = None) g -> Forall (fun sp => exists ts, answers mv answer (n_normalized (sp_norm sp)) ts) g ->
  exists g' tss, map_res (tokenize_one (fun ns => answer (n_normalized ns))) g = Ok g' /\ Forall2 tokenised g g' /\ flat_map tokens_in g' = concat tss /\
    Forall (token_named mv av) (concat tss) /\ Forall2 (answers mv answer) (map (fun sp => n_normalized (sp_norm sp)) g) tss.
Proof.
  intros MO DN AH. induction g as [|sp g IH]; intros F1 F2; [exists [], []; repeat split; constructor|].
  apply Forall_cons_iff in F1. destruct F1 as [Hn F1]. apply Forall_cons_iff in F2. destruct F2 as [(ts & AN) F2]. destruct (IH F1 F2) as (g' & tss & E & F & C & N & A).
  pose proof AN as [E1 V1].
  exists (mkSplit (sp_norm sp) (Some ts) :: g'), (ts :: tss). cbn [map_res]. unfold tokenize_one at 1. rewrite Hn, E1. cbn [bind]. rewrite E. cbn [bind].
  split; [reflexivity|]. split; [|split; [|split]].
  - constructor; [|exact F]. split; [reflexivity|]. split; [reflexivity|]. unfold tokens_in. cbn [sp_tokens sp_norm]. eapply Forall_impl; [|exact V1]. cbn beta. intros t [_ X]. exact X.
  - cbn [flat_map concat]. unfold tokens_in at 1. cbn [sp_tokens]. rewrite C. reflexivity.
  - cbn [concat]. apply Forall_app. split; [|exact N]. eapply Forall_impl; [|exact V1]. cbn beta. intros t [X _]. unfold token_named.
    eapply C25_round_trip_without_normalizer; [exact MO|exact DN|exact AH|]. eapply C25_model_tokens_keep_their_id; [exact AH|exact X].
  - cbn [map]. constructor; assumption.
Qed.

Lemma word_ids t mv TN nz TP p offered s ty ot :
  word_tokenizer t mv TN nz TP p offered -> model_ok mv -> dense mv -> tz_truncation t = None -> text s -> none_in offered s ->
  (forall ws, words_of TP p (normal_text TN nz s) ws -> Forall (fun w => exists ts, answers mv (tz_model t) w ts) ws) ->
  exists e ws tss, encode_part t ty ot None s = Ok e /\ words_of TP p (normal_text TN nz s) ws /\ Forall text ws /\
    Forall2 (answers mv (tz_model t)) ws tss /\ ids e = map t_id (concat tss) /\ Forall (token_named mv (tz_added t)) (concat tss).
Proof.
  intros ((TO & U & HN) & (HS & UP & HP) & (build & NF & taken & AH0) & PA) MO DN HT TX NI AN.
  assert (NN : Forall (fun tk => at_normalized tk = false) offered) by (eapply Forall_impl; [|exact PA]; intros x (X & _); exact X).
  destruct (plain_history _ _ _ _ _ _ AH0 NN) as (AH & FO & NT).
  assert (NST : no_strips (tz_added t)).
  { intros i x E. apply (aget_In N.eqb N.eqb_eq) in E. apply FO in E. rewrite Forall_forall in PA. destruct (PA _ E) as (_ & X & Y). auto. }
  destruct (word_extract (tz_space t) (tz_word t) build mv (tz_added t) offered taken TN nz s) as (p1 & E1 & I1 & M1); auto.
  assert (SO1 : Forall section_ok (pt_splits p1)).
  { destruct (normal_text TN nz s) as [|c x]; [rewrite M1; constructor|]. destruct M1 as (z & -> & _ & _ & LZ). constructor; [|constructor]. intros _. exact LZ. }
  destruct (C65_pieces TP p s p1 HS UP I1 SO1) as (p2 & gs & E2 & G & F & I2 & SO2).
  assert (W : exists ws, Forall (fun sp => sp_tokens sp = None) (pt_splits p2) /\ map (fun sp => n_normalized (sp_norm sp)) (pt_splits p2) = ws /\ words_of TP p (normal_text TN nz s) ws).
  { destruct (normal_text TN nz s) as [|c x] eqn:EN.
    - rewrite M1 in F. inversion F; subst gs. cbn [concat] in G. rewrite G. exists []. split; [constructor|]. split; reflexivity.
    - destruct M1 as (z & EZ & TZ & NZ & _). rewrite EZ in F. inversion F as [|? g ? ? PG F']; subst. inversion F'; subst. cbn [concat] in G. rewrite app_nil_r in G.
      unfold piece_group in PG. rewrite TZ, NZ in PG. destruct PG as [PG1 PG2]. rewrite <- G in *. eexists. split; [exact PG1|]. split; [reflexivity|]. exact PG2. }
  destruct W as (ws & TN2 & EW & WO).
  destruct (answered_words mv (tz_model t) build (tz_added t) offered taken MO DN AH (pt_splits p2) TN2) as (l3 & tss & E3 & F3 & C3 & N3 & A3).
  { specialize (AN ws WO). rewrite <- EW, Forall_map in AN. exact AN. }
  rewrite EW in A3.
  assert (R : ready (mkPre (pt_original p2) l3)) by (eapply tokenised_ready; eauto).
  assert (SL : Forall (fun sp0 => solid (sp_norm sp0)) (pt_splits (mkPre (pt_original p2) l3))).
  { cbn [pt_splits]. clear -F3 SO2 TN2. revert SO2 TN2. induction F3 as [|a b la lb (E & _) _ IH]; intros SO TN; [constructor|]. apply Forall_cons_iff in SO. destruct SO as [SA SO]. apply Forall_cons_iff in TN. destruct TN as [TA TN].
    constructor; [rewrite E; apply SA; exact TA|auto]. }
  destruct (ready_encodes (mkPre (pt_original p2) l3) None ty ot R SL) as (e & Ee).
  assert (TW : Forall text ws).
  { rewrite <- EW. apply Forall_map. clear -SO2 TN2. revert TN2. induction SO2 as [|x l H _ IH]; intros TN; [constructor|]. apply Forall_cons_iff in TN. destruct TN as [TA TN]. constructor; [apply (H TA)|auto]. }
  exists e, ws, tss. split; [|split; [exact WO|split; [exact TW|split; [exact A3|split; [|exact N3]]]]].
  - unfold encode_part. rewrite HN, E1. cbn [bind]. unfold do_pre_tokenize. rewrite HP, E2. cbn [bind]. unfold do_tokenize, token_limit. rewrite HT.
    unfold tokenize_in. unfold pt_tokenize. rewrite E3. cbn [bind]. exact Ee.
  - apply into_encoding_ids in Ee. cbn [pt_splits] in Ee. rewrite Ee, C3. reflexivity.
Qed.

(** ** WordPiece *)
Lemma wp_model_ok m : NoDup (map fst (w_vocab m)) -> NoDup (map snd (w_vocab m)) -> model_ok (wp_vocabulary m).
Proof.
  intros D1 D2. assert (R : forall t i, wp_token_to_id m t = Some i <-> In (t, i) (w_vocab m)).
  { intros t i. unfold wp_token_to_id. split; intros H; [apply (aget_In str_eqb str_eqb_eq); exact H|apply (In_aget str_eqb str_eqb_eq); assumption]. }
  constructor; cbn [wp_vocabulary mv_vocab mv_token_to_id mv_id_to_token mv_size]; auto.
  intros t i. rewrite R. unfold wp_id_to_token. apply reverse_vocab_iff. exact D2.
Qed.

Lemma spelt_dec m w : spelt m w \/ ~ spelt m w.
Proof.
  unfold spelt. destruct (Nat.le_gt_cases (length w) (w_max m)) as [L|L]; [|right; intros [X _]; lia].
  destruct (C40_cases m w) as [G|G]; [left; auto|]. right. intros [_ (xs & X)]. exact (G xs X).
Qed.

Lemma tokens_of_answers m : forall xs pre toks, Forall (fun x => x <> []) xs -> tokens_of (w_vocab m) (w_prefix m) pre xs toks ->
  Forall (fun t => mv_token_to_id (wp_vocabulary m) (t_value t) = Some (t_id t) /\ fst (t_offsets t) < snd (t_offsets t) <= blen (pre ++ concat xs)) toks.
Proof.
  induction xs as [|x xs IH]; intros pre [|t toks] F T; cbn [tokens_of] in T; try contradiction; [constructor|].
  destruct T as (E & V & O & T). apply Forall_cons_iff in F. destruct F as [Nx F]. constructor.
  - cbn [wp_vocabulary mv_token_to_id]. unfold wp_token_to_id. rewrite V, O. split; [exact E|]. cbn [fst snd concat]. rewrite !blen_app. destruct x as [|c x]; [congruence|]. cbn [blen]. pose proof (len_utf8_pos c). lia.
  - specialize (IH _ _ F T). cbn [concat]. rewrite <- app_assoc in IH. exact IH.
Qed.

(** The tokens of a word: its pieces, or the unknown token. *)
Definition word_tokens (m : wordpiece) (w : str) (toks : list token) : Prop :=
  (spelt m w /\ exists x xs, w = x ++ concat xs /\ x <> [] /\ map t_value toks = x :: map (app (w_prefix m)) xs) \/
  (~ spelt m w /\ map t_value toks = [w_unk m]).

Lemma later_values vocab prefix : forall xs pre toks, pre <> [] -> tokens_of vocab prefix pre xs toks -> map t_value toks = map (app prefix) xs.
Proof.
  induction xs as [|x xs IH]; intros pre [|t toks] N T; cbn [tokens_of] in T; try contradiction; [reflexivity|].
  destruct T as (_ & V & _ & T). cbn [map]. rewrite V. unfold entry. destruct pre as [|p pre']; [congruence|]. f_equal. apply (IH ((p :: pre') ++ x)); [discriminate|exact T].
Qed.

Lemma wp_answers m w : wp_token_to_id m (w_unk m) <> None -> w <> [] -> exists toks, answers (wp_vocabulary m) (wp_model m) w toks /\ word_tokens m w toks.
Proof.
  intros HU NW. unfold wp_model, answers, word_tokens. destruct (spelt_dec m w) as [S|S].
  - pose proof S as [L (xs & G)]. destruct (C40_pieces m w xs L G) as (toks & E & T). destruct (C40_cover _ _ _ _ _ G) as [C NE]. exists toks. rewrite E.
    split; [split; [reflexivity|]|].
    + pose proof (tokens_of_answers m xs [] toks NE T) as F. cbn [app] in F. rewrite C in F. exact F.
    + left. split; [exact S|]. destruct xs as [|x xs]; [cbn in C; congruence|]. destruct toks as [|t toks]; [destruct T|]. cbn [tokens_of] in T. destruct T as (_ & V & _ & T). cbn [entry app] in V, T.
      apply Forall_cons_iff in NE. destruct NE as [Nx NE]. exists x, xs. split; [symmetry; exact C|]. split; [exact Nx|]. cbn [map]. rewrite V. f_equal. eapply later_values; [|exact T]. exact Nx.
  - assert (E : wp_tokenize m w = match aget str_eqb (w_unk m) (w_vocab m) with Some id => Ok [mkTok id (w_unk m) (0, blen w)] | None => Err EMissingUnk end).
    { apply C40_unknown. destruct (Nat.le_gt_cases (length w) (w_max m)) as [L|L]; [|left; lia]. right. intros xs G. apply S. split; [exact L|eauto]. }
    rewrite E. unfold wp_token_to_id in HU. destruct (aget str_eqb (w_unk m) (w_vocab m)) as [id|] eqn:EU; [|congruence]. exists [mkTok id (w_unk m) (0, blen w)].
    split; [split; [reflexivity|]|right; split; [exact S|reflexivity]]. constructor; [|constructor]. cbn [t_value t_id t_offsets fst snd wp_vocabulary mv_token_to_id]. split; [exact EU|].
    destruct w as [|c w]; [congruence|]. cbn [blen]. pose proof (len_utf8_pos c). lia.
Qed.

(** ** The decoder on the tokens of one word *)
Definition cleaned (cleanup : bool) (x : str) : str := if cleanup then wp_cleanup x else x.

(** Nothing the cleanup changes, but the space in front. *)
Definition neat (w : str) : Prop :=
  ~ In 32%N w /\ ((forall c, In c [33; 39; 44; 46; 63]%N -> ~ In c w) \/ exists c, w = [c]).

Lemma cleanup_no_space x : ~ In 32%N x -> wp_cleanup x = x.
Proof.
  intros H. apply cleanup_absent. assert (F : Forall (fun r : str * str => In 32%N (fst r)) clean_rules) by (repeat constructor).
  eapply Forall_impl; [|exact F]. intros r R (u & v & ->). apply H. apply in_or_app. right. apply in_or_app. left. exact R.
Qed.

Lemma cleanup_spaced x : ~ In 32%N x -> (forall c, In c [33; 39; 44; 46; 63]%N -> ~ In c x) -> wp_cleanup (32%N :: x) = 32%N :: x.
Proof.
  intros H P. apply cleanup_absent.
  assert (F : Forall (fun r : str * str => exists r', fst r = 32%N :: r' /\ exists c, In c r' /\ (c = 32%N \/ In c [33; 39; 44; 46; 63]%N)) clean_rules).
  { repeat constructor; eexists; (split; [reflexivity|]).
    all: first [ exists 46%N; split; [cbn; tauto|cbn; tauto] | exists 63%N; split; [cbn; tauto|cbn; tauto] | exists 33%N; split; [cbn; tauto|cbn; tauto]
               | exists 44%N; split; [cbn; tauto|cbn; tauto] | exists 39%N; split; [cbn; tauto|cbn; tauto] | exists 32%N; split; [cbn; tauto|cbn; tauto] ]. }
  eapply Forall_impl; [|exact F]. intros r (r' & -> & c & I & Q) (u & v & E). destruct u as [|z u]; cbn [app] in E.
  - injection E as E. assert (J : In c x) by (rewrite E; apply in_or_app; left; exact I). destruct Q as [->|Q]; [exact (H J)|exact (P c Q J)].
  - injection E as _ E. apply H. rewrite E. apply in_or_app. right. left. reflexivity.
Qed.

Lemma cleanup_mark c : c <> 32%N -> wp_cleanup [32%N; c] = spaced_word true [c].
Proof.
  intros N. unfold spaced_word, hugging. cbn [existsb andb].
  destruct (N.eq_dec c 46) as [->|N1]; [reflexivity|]. destruct (N.eq_dec c 63) as [->|N2]; [reflexivity|].
  destruct (N.eq_dec c 33) as [->|N3]; [reflexivity|]. destruct (N.eq_dec c 44) as [->|N4]; [reflexivity|].
  assert (Q : forall d, c <> d -> str_eqb [c] [d] = false) by (intros d X; destruct (str_eqb [c] [d]) eqn:E; [apply str_eqb_eq in E; congruence|reflexivity]).
  rewrite !Q by assumption. cbn [orb]. apply cleanup_absent.
  assert (F : Forall (fun r : str * str => (exists d, fst r = [32%N; d] /\ In d [46; 63; 33; 44]%N) \/ 2 < length (fst r)) clean_rules).
  { unfold clean_rules. repeat (apply Forall_cons; [cbn [fst length]; first [ left; eexists; split; [reflexivity|cbn; tauto] | right; lia ]|]). constructor. }
  eapply Forall_impl; [|exact F]. intros r [(d & -> & I)|L] (u & v & E).
  - destruct u as [|z [|z2 u]]; cbn [app] in E; injection E; [|discriminate|]; intros; subst; [cbn in I; intuition congruence|]. destruct u; discriminate.
  - pose proof (f_equal (@length _) E) as B. rewrite !app_length in B. cbn [length] in B. lia.
Qed.

Lemma decode_later prefix cleanup : forall xs, (cleanup = true -> ~ In 32%N (concat xs)) ->
  concat (wordpiece_decode prefix cleanup false (map (app prefix) xs)) = concat xs.
Proof.
  induction xs as [|x xs IH]; intros H; [reflexivity|]. cbn [map wordpiece_decode concat].
  pose proof (strip_prefix_spec prefix (prefix ++ x)) as S. destruct (strip_prefix prefix (prefix ++ x)) as [y|]; [|exfalso; exact (S x eq_refl)].
  apply app_inv_head in S. subst y. rewrite IH by (intros X Y; apply (H X); cbn [concat]; apply in_or_app; right; exact Y). f_equal.
  destruct cleanup; [|reflexivity]. apply cleanup_no_space. intros Y. apply (H eq_refl). cbn [concat]. apply in_or_app. left. exact Y.
Qed.

(** What a group of tokens is decoded to, at the start of a text and elsewhere. *)
Definition decoded_as (prefix : str) (cleanup : bool) (vals : list str) (o : str) : Prop :=
  vals <> [] /\ concat (wordpiece_decode prefix cleanup true vals) = o /\ concat (wordpiece_decode prefix cleanup false vals) = spaced_word cleanup o.

Lemma spelt_decoded prefix cleanup x xs : x <> [] -> not_continued prefix (x ++ concat xs) -> (cleanup = true -> neat (x ++ concat xs)) ->
  decoded_as prefix cleanup (x :: map (app prefix) xs) (x ++ concat xs).
Proof.
  intros Nx NC NT. split; [discriminate|].
  assert (D : concat (wordpiece_decode prefix cleanup false (map (app prefix) xs)) = concat xs).
  { apply decode_later. intros C X. destruct (NT C) as [Y _]. apply Y. apply in_or_app. right. exact X. }
  cbn [wordpiece_decode concat]. rewrite D. split.
  - f_equal. destruct cleanup; [|reflexivity]. apply cleanup_no_space. intros X. destruct (NT eq_refl) as [Y _]. apply Y. apply in_or_app. left. exact X.
  - pose proof (strip_prefix_spec prefix x) as S. destruct (strip_prefix prefix x) as [y|]; [exfalso; apply (NC (y ++ concat xs)); rewrite S, <- app_assoc; reflexivity|].
    destruct cleanup; [|reflexivity]. destruct (NT eq_refl) as [Y [P|(c & E)]].
    + rewrite cleanup_spaced; [| |].
      * unfold spaced_word, hugging. cbn [andb existsb].
        assert (Q : forall d, In d [33; 39; 44; 46; 63]%N -> str_eqb (x ++ concat xs) [d] = false).
        { intros d I. destruct (str_eqb (x ++ concat xs) [d]) eqn:E; [|reflexivity]. apply str_eqb_eq in E. exfalso. apply (P d I). rewrite E. left. reflexivity. }
        rewrite !Q by (cbn; tauto). reflexivity.
      * intros X. apply Y. apply in_or_app. left. exact X.
      * intros c I X. apply (P c I). apply in_or_app. left. exact X.
    + destruct x as [|d x]; [congruence|]. cbn [app] in E. injection E as -> E. apply app_eq_nil in E. destruct E as [-> E]. rewrite E. cbn [app]. rewrite app_nil_r. apply cleanup_mark.
      intros ->. apply Y. left. reflexivity.
Qed.

Lemma unknown_decoded prefix cleanup u : not_continued prefix u -> (cleanup = true -> tidy u) -> decoded_as prefix cleanup [u] u.
Proof.
  intros NC TD. split; [discriminate|]. cbn [wordpiece_decode concat]. rewrite !app_nil_r.
  pose proof (strip_prefix_spec prefix u) as S. destruct (strip_prefix prefix u) as [y|]; [exfalso; exact (NC y S)|].
  destruct cleanup; [|split; reflexivity]. specialize (TD eq_refl). unfold tidy in TD. split.
  - apply cleanup_absent. eapply Forall_impl; [|exact TD]. intros r N (a & b & E). apply N. exists (32%N :: a), b. rewrite E. reflexivity.
  - rewrite cleanup_absent by exact TD. unfold spaced_word, hugging. cbn [andb existsb].
    assert (Q : forall d, In d [46; 63; 33; 44]%N -> str_eqb u [d] = false).
    { intros d I. destruct (str_eqb u [d]) eqn:E; [|reflexivity]. apply str_eqb_eq in E. exfalso. subst u. unfold clean_rules in TD.
      repeat (apply Forall_cons_iff in TD; destruct TD as [? TD]). cbn [fst] in *. destruct I as [<-|[<-|[<-|[<-|[]]]]];
      match goal with H : ~ occurs [32%N; ?d] [32%N; ?d] |- _ => apply H; exists [], []; reflexivity end. }
    rewrite !Q by (cbn; tauto). reflexivity.
Qed.

Lemma decode_first_rest prefix cleanup first : forall a b, a <> [] ->
  concat (wordpiece_decode prefix cleanup first (a ++ b)) = concat (wordpiece_decode prefix cleanup first a) ++ concat (wordpiece_decode prefix cleanup false b).
Proof.
  intros a. revert first. induction a as [|x a IH]; intros first b N; [congruence|]. cbn [app wordpiece_decode concat].
  destruct a as [|y a]; [cbn [app wordpiece_decode concat]; rewrite app_nil_r; reflexivity|]. rewrite IH by discriminate. rewrite app_assoc. reflexivity.
Qed.

Lemma groups_decoded prefix cleanup : forall vss os, Forall2 (decoded_as prefix cleanup) vss os ->
  DecodersModel.decode_tokens (DWordPiece prefix cleanup) (concat vss) = Ok (sentence cleanup os).
Proof.
  intros vss os F.
  assert (R : forall vss os, Forall2 (decoded_as prefix cleanup) vss os -> concat (wordpiece_decode prefix cleanup false (concat vss)) = flat_map (spaced_word cleanup) os).
  { clear. induction 1 as [|vs o vss os (N & _ & D) _ IH]; [reflexivity|]. cbn [concat flat_map]. rewrite decode_first_rest by exact N. rewrite D, IH. reflexivity. }
  unfold DecodersModel.decode_tokens. cbn [decode_chain bind]. f_equal. destruct F as [|vs o vss os (N & D & _) F]; [reflexivity|]. cbn [concat sentence].
  rewrite decode_first_rest by exact N. rewrite D, (R _ _ F). reflexivity.
Qed.

Lemma sentence_plain ws : sentence false ws = join_spaces ws.
Proof.
  destruct ws as [|w ws]; [reflexivity|]. cbn [sentence]. revert w. induction ws as [|v ws IH]; intros w; [apply app_nil_r|].
  cbn [flat_map]. rewrite <- app_assoc || idtac. unfold spaced_word at 1. cbn [hugging andb]. cbn [join_spaces app]. f_equal. f_equal. exact (IH v).
Qed.


(** ** From words to decoded text *)
(** The tokens that decoding keeps. *)
Lemma kept_values mv av skip toks : Forall (token_named mv av) toks ->
  decode_tokens mv av skip (map t_id toks) = filter (fun v => negb (skip && av_is_special av v)) (map t_value toks).
Proof.
  induction 1 as [|t toks H _ IH]; [reflexivity|]. unfold token_named in H. unfold decode_tokens in *. cbn [map flat_map filter]. rewrite H, IH.
  destruct skip, (av_is_special av (t_value t)); reflexivity.
Qed.

Lemma filter_all {A} (f : A -> bool) l : Forall (fun x => f x = true) l -> filter f l = l.
Proof. induction 1 as [|x l H _ IH]; [reflexivity|]. cbn [filter]. rewrite H, IH. reflexivity. Qed.
Lemma filter_concat {A} (f : A -> bool) ls : filter f (concat ls) = concat (map (filter f) ls).
Proof. induction ls as [|l ls IH]; [reflexivity|]. cbn [concat map]. rewrite filter_app, IH. reflexivity. Qed.

(** Every word, with its tokens after the special ones were dropped. *)
Lemma told_words m prefix cleanup (special : str -> bool) : prefix = w_prefix m ->
  not_continued prefix (w_unk m) -> (cleanup = true -> tidy (w_unk m)) ->
  forall ws tss, Forall2 (word_tokens m) ws tss -> Forall (fun w => not_continued prefix w /\ (cleanup = true -> neat w)) ws ->
  (forall w x xs, In w ws -> w = x ++ concat xs -> x <> [] -> Forall (fun v => special v = false) (x :: map (app prefix) xs)) ->
  exists vss os, concat (map (filter (fun v => negb (special v))) (map (map t_value) tss)) = concat vss /\
    Forall2 (decoded_as prefix cleanup) vss os /\ told m (special (w_unk m)) ws os.
Proof.
  intros -> NU TU ws tss F. induction F as [|w toks ws tss WT _ IH]; intros NW SP; [exists [], []; repeat split; constructor|].
  apply Forall_cons_iff in NW. destruct NW as [[NC NT] NW]. destruct (IH NW) as (vss & os & E & FD & TD); [intros w' x xs I; apply SP; right; exact I|].
  destruct WT as [(S & x & xs & EW & Nx & EV)|(S & EV)].
  - exists ((x :: map (app (w_prefix m)) xs) :: vss), (w :: os). cbn [map concat]. rewrite EV, E. split; [|split].
    + rewrite filter_all; [reflexivity|]. eapply Forall_impl; [|exact (SP w x xs (or_introl eq_refl) EW Nx)]. intros v Hv. cbn beta. rewrite Hv. reflexivity.
    + constructor; [|exact FD]. subst w. apply spelt_decoded; assumption.
    + constructor; assumption.
  - cbn [map concat]. rewrite EV, E. cbn [filter]. destruct (special (w_unk m)) eqn:SU; cbn [negb app].
    + exists vss, os. split; [reflexivity|]. split; [exact FD|]. apply (told_unknown m true w ws os S TD).
    + exists ([w_unk m] :: vss), (w_unk m :: os). split; [reflexivity|]. split; [constructor; [apply unknown_decoded; assumption|exact FD]|]. apply (told_unknown m false w ws os S TD).
Qed.

(** ** The words of BERT *)
Definition bert_word (TP : PreTokenizersModel.tables) (w : str) : Prop :=
  w <> [] /\ Forall (fun c => is_ws TP c = false) w /\ ((exists c, w = [c] /\ punctuation TP c) \/ Forall (fun c => ~ punctuation TP c) w).

Lemma runs_spaces T prev s ws : class_runs (fun c => if is_ws T c then None else Some tt) prev s ws -> Forall (Forall (fun c => is_ws T c = false)) ws.
Proof.
  induction 1 as [prev|prev c s ps E _ IH|prev k x s ps N F P _ IH]; [constructor|exact IH|]. constructor; [|exact IH].
  eapply Forall_impl; [|exact F]. intros c Hc. cbn beta in Hc. destruct (is_ws T c); [discriminate|reflexivity].
Qed.

Lemma apart_words T p s ws : (forall c, p c = true <-> punctuation T c) -> Forall (fun c => is_ws T c = false) s -> marks_apart p s ws -> Forall (bert_word T) ws.
Proof.
  intros HP F M. revert F. induction M as [|c s ps Hc _ IH|x s ps N Fx B _ IH]; intros F; [constructor| |].
  - apply Forall_cons_iff in F. destruct F as [F1 F2]. constructor; [|auto]. split; [discriminate|]. split; [constructor; [exact F1|constructor]|]. left. exists c. split; [reflexivity|apply HP; exact Hc].
  - apply Forall_app in F. destruct F as [F1 F2]. constructor; [|auto]. split; [exact N|]. split; [exact F1|]. right. eapply Forall_impl; [|exact Fx]. intros c Hc X. apply HP in X. cbn beta in Hc. congruence.
Qed.

Lemma bert_words T s ws : words_of T PtBert s ws -> Forall (bert_word T) ws.
Proof.
  intros H. unfold words_of in H. destruct s as [|c s]; [subst; constructor|]. cbn [pieces_of by_behavior] in H. destruct H as (vs & gs & R & F & ->).
  apply runs_spaces in R. clear -R F. revert R. induction F as [|v g vs gs (p & HP & M) _ IH]; intros R; [constructor|]. apply Forall_cons_iff in R. destruct R as [R1 R2].
  cbn [concat]. apply Forall_app. split; [eapply apart_words; eauto|auto].
Qed.

Lemma bert_not_continued T c d y w : bert_word T w -> punctuation T c -> not_continued (c :: d :: y) w.
Proof.
  intros (_ & _ & [(e & -> & _)|F]) P z E; [discriminate|]. rewrite E in F. apply Forall_cons_iff in F. destruct F as [F _]. exact (F P).
Qed.

Lemma bert_neat T w : is_ws T 32%N = true -> bert_word T w -> neat w.
Proof.
  intros HW (_ & F & Q). split.
  - intros I. rewrite Forall_forall in F. specialize (F _ I). congruence.
  - destruct Q as [(c & -> & _)|Q]; [right; eauto|]. left. intros c I J. rewrite Forall_forall in Q. apply (Q c J). left. cbn in I |- *. intuition.
Qed.

(** The pieces of a word are not special tokens when these are bracketed. *)
Lemma bert_pieces_ordinary T prefix w x xs v : bert_word T w -> w = x ++ concat xs -> x <> [] -> In v (x :: map (app prefix) xs) -> ~ bracketed T prefix v.
Proof.
  intros (_ & _ & Q) E Nx I [(c & d & y & -> & P) NC]. destruct I as [->|I].
  - destruct Q as [(e & -> & _)|F]; [discriminate|]. rewrite E in F. apply Forall_cons_iff in F. destruct F as [F _]. exact (F P).
  - apply in_map_iff in I. destruct I as (z & Ez & _). exact (NC z (eq_sym Ez)).
Qed.

(** ** WordPiece tokenizers *)
Lemma wordpiece_ids t m TN nz TP p offered s ty ot :
  word_tokenizer t (wp_vocabulary m) TN nz TP p offered -> tz_model t = wp_model m -> sound_wordpiece m -> tz_truncation t = None -> text s -> none_in offered s ->
  (forall ws, words_of TP p (normal_text TN nz s) ws -> Forall (fun w => w <> []) ws) ->
  exists e ws tss, encode_part t ty ot None s = Ok e /\ words_of TP p (normal_text TN nz s) ws /\ Forall text ws /\
    Forall2 (fun w toks => wp_model m w = Ok toks) ws tss /\ Forall2 (word_tokens m) ws tss /\
    ids e = map t_id (concat tss) /\ Forall (token_named (wp_vocabulary m) (tz_added t)) (concat tss).
Proof.
  intros WT TM (D1 & D2 & DN & HU & _) HT TX NI NE.
  destruct (word_ids t (wp_vocabulary m) TN nz TP p offered s ty ot) as (e & ws & tss & E & W & TW & A & I & N); auto.
  - apply wp_model_ok; assumption.
  - intros ws W. eapply Forall_impl; [|exact (NE ws W)]. intros w Nw. rewrite TM. destruct (wp_answers m w HU Nw) as (toks & AN & _). eauto.
  - exists e, ws, tss. split; [exact E|]. split; [exact W|]. split; [exact TW|]. split; [rewrite <- TM; clear -A; induction A as [|w ts ws tss [H _] _ IH]; constructor; assumption|]. split; [|auto]. specialize (NE ws W). clear -A NE TM HU. revert NE. induction A as [|w ts ws tss H _ IH]; intros NE; [constructor|].
    apply Forall_cons_iff in NE. destruct NE as [Nw NE]. constructor; [|auto]. destruct (wp_answers m w HU Nw) as (toks & [E _] & K). destruct H as [H _]. rewrite TM, E in H. injection H as <-. exact K.
Qed.

Lemma tell_words m av skip prefix cleanup ws tss : prefix = w_prefix m -> not_continued prefix (w_unk m) -> (cleanup = true -> tidy (w_unk m)) ->
  Forall2 (word_tokens m) ws tss -> Forall (token_named (wp_vocabulary m) av) (concat tss) ->
  Forall (fun w => not_continued prefix w /\ (cleanup = true -> neat w)) ws ->
  (skip = true -> forall w x xs, In w ws -> w = x ++ concat xs -> x <> [] -> Forall (fun v => av_is_special av v = false) (x :: map (app prefix) xs)) ->
  exists os, told m (skip && av_is_special av (w_unk m)) ws os /\
    AddedModel.decode (wp_vocabulary m) av (Some (DecodersModel.decode_tokens (DWordPiece prefix cleanup))) skip (map t_id (concat tss)) = Ok (sentence cleanup os).
Proof.
  intros EP NU TU F N NW SP.
  destruct (told_words m prefix cleanup (fun v => skip && av_is_special av v) EP NU TU ws tss F NW) as (vss & os & E & FD & TD).
  { intros w x xs I EW Nx. destruct skip; [|apply Forall_forall; reflexivity]. exact (SP eq_refl w x xs I EW Nx). }
  exists os. split; [exact TD|]. unfold AddedModel.decode. rewrite kept_values by exact N.
  rewrite concat_map, filter_concat, E. apply groups_decoded. exact FD.
Qed.

(** ** The words of BERT, read from left to right *)
Section bert_read.
  Context (T : PreTokenizersModel.tables) (pn : char -> bool) (HP : forall c, pn c = true <-> punctuation T c).

  Definition flushed (cur : str) : list str := match cur with [] => [] | _ => [cur] end.
  Fixpoint read (cur s : str) : list str :=
    match s with
    | [] => flushed cur
    | c :: s' => if is_ws T c then flushed cur ++ read [] s'
                 else if pn c then flushed cur ++ [c] :: read [] s'
                 else read (cur ++ [c]) s'
    end.

  Definition ends_word (r : str) : Prop := match r with [] => True | c :: _ => is_ws T c = true \/ pn c = true end.

  Lemma read_end cur r : ends_word r -> read cur r = flushed cur ++ read [] r.
  Proof.
    destruct r as [|c r]; cbn [ends_word read]; [intros _; rewrite app_nil_r; reflexivity|]. intros [->| E]; [reflexivity|]. rewrite E. destruct (is_ws T c); reflexivity.
  Qed.

  Lemma read_text : forall x cur r, Forall (fun c => is_ws T c = false /\ pn c = false) x -> read cur (x ++ r) = read (cur ++ x) r.
  Proof.
    induction x as [|c x IH]; intros cur r F; [rewrite app_nil_r; reflexivity|]. apply Forall_cons_iff in F. destruct F as [[F1 F2] F]. cbn [app read]. rewrite F1, F2, IH by exact F. rewrite <- app_assoc. reflexivity.
  Qed.

  Lemma read_word x r : x <> [] -> Forall (fun c => is_ws T c = false /\ pn c = false) x -> ends_word r -> read [] (x ++ r) = x :: read [] r.
  Proof.
    intros N F E. rewrite read_text by exact F. cbn [app]. rewrite read_end by exact E. destruct x; [congruence|reflexivity].
  Qed.

  Lemma read_apart p x g : (forall c, p c = true <-> punctuation T c) -> marks_apart p x g -> Forall (fun c => is_ws T c = false) x ->
    forall r, match r with [] => True | c :: _ => is_ws T c = true end -> read [] (x ++ r) = g ++ read [] r.
  Proof.
    intros HP' M. assert (PE : forall c, p c = pn c). { intros c. destruct (p c) eqn:E1, (pn c) eqn:E2; try reflexivity; exfalso; [apply HP', HP in E1|apply HP, HP' in E2]; congruence. }
    induction M as [|c s ps Hc _ IH|y s ps N Fy B _ IH]; intros F r HR; [reflexivity| |].
    - apply Forall_cons_iff in F. destruct F as [F1 F2]. cbn [app read]. rewrite F1, <- PE, Hc. cbn [flushed app]. rewrite IH by assumption. reflexivity.
    - apply Forall_app in F. destruct F as [F1 F2]. rewrite <- app_assoc. rewrite read_word; [cbn [app]; f_equal; apply IH; assumption|exact N| |].
      + apply Forall_forall. intros c I. rewrite Forall_forall in F1, Fy. split; [auto|]. rewrite <- PE. auto.
      + destruct s as [|c s]; cbn [app]; [destruct r; [exact Logic.I|left; exact HR]|]. right. rewrite <- PE. exact B.
  Qed.

  Lemma read_runs : forall prev s vs, class_runs (fun c => if is_ws T c then None else Some tt) prev s vs -> forall gs,
    Forall2 (fun w g => exists p, (forall c, p c = true <-> punctuation T c) /\ marks_apart p w g) vs gs -> read [] s = concat gs.
  Proof.
    induction 1 as [prev|prev c s ps E _ IH|prev k x s ps N F P R IH]; intros gs FG.
    - inversion FG. reflexivity.
    - cbn [read]. destruct (is_ws T c); [|discriminate]. apply IH. exact FG.
    - inversion FG as [|? g ? gs' (p & HP' & M) FG']; subst. cbn [concat]. rewrite <- (IH gs' FG').
      eapply read_apart; [exact HP'|exact M| |].
      + eapply Forall_impl; [|exact F]. intros c Hc. cbn beta in Hc. destruct (is_ws T c); [discriminate|reflexivity].
      + destruct s as [|c s]; [exact Logic.I|]. destruct (is_ws T c) eqn:EW; [reflexivity|]. exfalso. inversion R as [|? ? ? ? E' R'|? k' x' s' ps' N' F' P' R']; subst; [rewrite EW in E'; discriminate|].
        destruct k, k'. congruence.
  Qed.

  Lemma words_read s ws : words_of T PtBert s ws -> ws = read [] s.
  Proof.
    unfold words_of. destruct s as [|c s]; [intros ->; reflexivity|]. cbn [pieces_of by_behavior]. intros (vs & gs & R & F & ->). symmetry. eapply read_runs; eauto.
  Qed.

  Lemma read_sentence cleanup : is_ws T 32%N = true -> forall ws, Forall (bert_word T) ws -> read [] (sentence cleanup ws) = ws.
  Proof.
    intros W32.
    assert (HG : forall w (r : str), hugging cleanup w = true -> exists c, w = [c] /\ pn c = true).
    { intros w _ H. unfold hugging in H. apply andb_true_iff in H. destruct H as [_ H]. apply existsb_exists in H. destruct H as (x & I & E). apply str_eqb_eq in E. subst x.
      cbn in I. destruct I as [<-|[<-|[<-|[<-|[]]]]]; (eexists; split; [reflexivity|]; apply HP; left; cbn; tauto). }
    assert (WR : forall w r, bert_word T w -> ends_word r -> read [] (w ++ r) = w :: read [] r).
    { intros w r (N & F & [(c & -> & P)|Q]) E.
      - apply Forall_cons_iff in F. destruct F as [F _]. apply HP in P. cbn [app read]. rewrite F, P. reflexivity.
      - apply read_word; [exact N| |exact E]. apply Forall_forall. intros c I. rewrite Forall_forall in F, Q. split; [auto|]. destruct (pn c) eqn:EP; [|reflexivity]. exfalso. apply (Q c I). apply HP. exact EP. }
    assert (ER : forall ws, ends_word (flat_map (spaced_word cleanup) ws)).
    { intros [|w ws]; [exact Logic.I|]. cbn [flat_map]. unfold spaced_word at 1. destruct (hugging cleanup w) eqn:H; [|left; exact W32]. destruct (HG w [] H) as (c & -> & P). right. exact P. }
    assert (R : forall ws, Forall (bert_word T) ws -> read [] (flat_map (spaced_word cleanup) ws) = ws).
    { induction 1 as [|w ws B _ IH]; [reflexivity|]. cbn [flat_map]. unfold spaced_word at 1. destruct (hugging cleanup w) eqn:H.
      - rewrite WR by (auto). rewrite IH. reflexivity.
      - cbn [app read]. rewrite W32. cbn [flushed app]. rewrite WR by auto. rewrite IH. reflexivity. }
    intros [|w ws] F; [reflexivity|]. apply Forall_cons_iff in F. destruct F as [F1 F2]. cbn [sentence]. rewrite WR by auto. rewrite R by exact F2. reflexivity.
  Qed.

  Lemma sentence_text cleanup ws : Forall text ws -> text (sentence cleanup ws).
  Proof.
    intros F. assert (R : text (flat_map (spaced_word cleanup) ws)).
    { induction F as [|w ws H _ IH]; [constructor|]. cbn [flat_map]. apply Forall_app. split; [|exact IH]. unfold spaced_word. destruct (hugging cleanup w); [exact H|]. constructor; [reflexivity|exact H]. }
    destruct F as [|w ws H F]; [constructor|]. cbn [sentence]. apply Forall_app. split; [exact H|]. clear -F. induction F as [|w ws H _ IH]; [constructor|]. cbn [flat_map]. apply Forall_app. split; [|exact IH].
    unfold spaced_word. destruct (hugging cleanup w); [exact H|]. constructor; [reflexivity|exact H].
  Qed.
End bert_read.

Lemma punctuation_decided T : exists pn, forall c, pn c = true <-> punctuation T c.
Proof.
  exists (fun c => existsb (N.eqb c) [33; 34; 35; 36; 37; 38; 39; 40; 41; 42; 43; 44; 45; 46; 47; 58; 59; 60; 61; 62; 63; 64; 91; 92; 93; 94; 95; 96; 123; 124; 125; 126]%N || is_punct T c).
  intros c. unfold punctuation. rewrite orb_true_iff, existsb_exists. split.
  - intros [(x & I & E)|H]; [apply N.eqb_eq in E; subst x; left; exact I|right; exact H].
  - intros [I|H]; [left; exists c; split; [exact I|apply N.eqb_refl]|right; exact H].
Qed.

Lemma told_all m drop ws os : Forall (spelt m) ws -> told m drop ws os -> os = ws.
Proof.
  intros F H. induction H as [|w ws os S _ IH|w ws os S _ IH]; [reflexivity| |]; apply Forall_cons_iff in F; destruct F as [F1 F2].
  - rewrite IH by exact F2. reflexivity.
  - contradiction.
Qed.

Lemma same_tokens m : forall (ws : list str) tss tss', Forall2 (fun w toks => wp_model m w = Ok toks) ws tss -> Forall2 (fun w toks => wp_model m w = Ok toks) ws tss' -> tss' = tss.
Proof.
  intros ws tss tss' F. revert tss'. induction F as [|w ts ws tss H _ IH]; intros tss' F'; inversion F' as [|? ts' ? tss2 H' F2]; subst; [reflexivity|]. rewrite H in H'. injection H' as <-. rewrite (IH _ F2). reflexivity.
Qed.
