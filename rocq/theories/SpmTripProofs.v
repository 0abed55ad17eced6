(** Proofs about the round trip with byte fallback. *)
From Verif Require Import Base ListFacts StrBytes Utf8 AMap EncodingModel EncodingSpec EncodingProofs NormModel NormSpec NormProofs NormProps
  BpeWordModel BpeWordSpec BpeWordProofs BpeModel BpeSpec BpeProofs BpeProps
  PatternModel PatternSpec NormalizersModel
  AddedModel AddedSpec AddedProofs AddedProofs2 AddedProofs3 AddedProofs4 AddedProps
  PreTokenizersModel PreTokenizersSpec PreTokenizersProofs PreTokenizersProofs2
  ProcessorsModel ProcessorsSpec TokenizerModel EndToEndSpec EndToEndProofs RoundTripModel RoundTripSpec RoundTripProofs SpmTripModel SpmTripSpec
  DecodersModel DecodersSpec DecodersProofs DecodersProofs2 DecodersProofs3 DecodersProps
  PreTokModel PreTokSpec PreTokProofs PreTokProofs2 PreTokProps AddedModel.

(** ** Words spelled with byte tokens *)
Definition plain_token (t : str) : Prop := forall b, ~ byte_like t b.

Inductive spelled : list str -> str -> Prop :=
| spl_nil : spelled [] []
| spl_plain t ts s : plain_token t -> spelled ts s -> spelled (t :: ts) (t ++ s)
| spl_bytes c ts s : is_scalar c = true -> c <> mark -> spelled ts s -> spelled (map byte_token (encode_char c) ++ ts) (c :: s).

Lemma spelled_app a x b y : spelled a x -> spelled b y -> spelled (a ++ b) (x ++ y).
Proof.
  induction 1 as [|t ts s P _ IH|c ts s S N _ IH]; intros B; [exact B| |].
  - rewrite <- app_assoc. cbn [app]. constructor; auto.
  - rewrite <- app_assoc. cbn [app]. constructor; auto.
Qed.

Lemma short_plain c : plain_token [c].
Proof. intros b H. inversion H. Qed.
Lemma byte_like_chars t b c : byte_like t b -> In c t -> c <> 32%N /\ c <> mark.
Proof.
  assert (HX : forall h x, hex_of h x -> h <> 32%N /\ h <> mark) by (intros h x H; apply hex_of_range in H; unfold mark; lia).
  intros [h l x y Hh Hl|l y Hl] I; cbn [In] in I; unfold mark in *; repeat (destruct I as [<-|I]; [first [eapply HX; eassumption|lia]|]); destruct I.
Qed.
Lemma byte_token_plain t b : (b < 256)%N -> plain_token t -> t <> byte_token b.
Proof. intros R P ->. exact (P _ (byte_like_token b R)). Qed.
Lemma marked_plain t : hd_error t = Some mark -> plain_token t.
Proof. intros H b B. destruct t as [|c t]; [discriminate|]. injection H as ->. destruct (byte_like_chars _ _ mark B (or_introl eq_refl)). congruence. Qed.

Lemma encode_char_nonempty c : encode_char c <> [].
Proof. unfold encode_char. repeat match goal with |- context [if ?b then _ else _] => destruct b end; discriminate. Qed.
Lemma encode_char_range c : is_scalar c = true -> Forall (fun b => (b < 256)%N) (encode_char c).
Proof.
  intros S. assert (T : text [c]) by (constructor; [exact S|constructor]). pose proof (encode_utf8_range _ T) as R. unfold encode_utf8 in R. cbn [flat_map] in R. rewrite app_nil_r in R. exact R.
Qed.

Section bpe_words.
  Context (vocab : list (str * N)) (merges : list (str * str)) (m : bpe).
  Context (BF : built_facts vocab merges None m) (D1 : NoDup (map fst vocab)) (ND : NoDup (map snd vocab)).
  Context (NS : b_suffix m = None) (FB : b_fallback m = true).
  Context (BY : byte_tokens vocab) (MK : In [mark] (map fst vocab)) (BA : bytes_apart merges).

  Lemma id_of t : In t (map fst vocab) -> exists i, b_id m t = Some i /\ In (t, i) vocab.
  Proof.
    intros H. apply in_map_iff in H. destruct H as ([y i] & E & H). cbn [fst] in E. subst y. exists i. split; [|exact H].
    unfold b_id. rewrite (bf_vocab _ _ _ _ BF). apply (In_aget str_eqb str_eqb_eq); assumption.
  Qed.

  (** The leaves of a word: known characters, and bytes of the others. *)
  Inductive leaf_run : str -> list (N * nat) -> Prop :=
  | lr_nil : leaf_run [] []
  | lr_known c s id l : b_id m [c] = Some id -> leaf_run s l -> leaf_run (c :: s) ((id, len_utf8 c) :: l)
  | lr_bytes c s is l : b_id m [c] = None -> Forall2 (fun b i => b_id m (byte_token b) = Some i) (encode_char c) is ->
      leaf_run s l -> leaf_run (c :: s) (map (fun i => (i, 1)) is ++ l).

  Lemma bytes_known : forall bs, Forall (fun b => (b < 256)%N) bs ->
    exists is, map_opt (fun b => b_id m (byte_token b)) bs = Some is /\ Forall2 (fun b i => b_id m (byte_token b) = Some i) bs is.
  Proof.
    induction 1 as [|b bs H _ (is & E & F)]; [exists []; split; [reflexivity|constructor]|].
    destruct (id_of _ (BY b H)) as (i & Ei & _). exists (i :: is). cbn [map_opt]. rewrite Ei, E. split; [reflexivity|]. constructor; assumption.
  Qed.

  Lemma leaves_run : forall s first, text s -> exists l, leaves m first s None = Ok l /\ leaf_run s l.
  Proof.
    induction s as [|c s IH]; intros first T; [exists []; split; [reflexivity|constructor]|]. inversion T as [|? ? Sc Ts]; subst.
    destruct (IH false Ts) as (l & E & R). cbn [leaves]. rewrite (plain_decorate _ _ _ _ _ _ BF NS).
    destruct (b_id m [c]) as [id|] eqn:EI.
    - rewrite E. cbn [bind flush app]. eexists. split; [reflexivity|]. constructor; assumption.
    - rewrite FB. destruct (bytes_known (encode_char c) (encode_char_range c Sc)) as (is & E1 & E2).
      unfold encode_utf8. cbn [flat_map]. rewrite app_nil_r, E1, E. cbn [bind]. eexists. split; [reflexivity|]. apply lr_bytes; assumption.
  Qed.

  Definition plain_id (i : N) : Prop := exists t, In (t, i) vocab /\ plain_token t.

  Lemma plain_of_merge a b r n : b_lookup m a b = Some (r, n) -> plain_id a /\ plain_id b /\ plain_id n.
  Proof.
    intros H. apply (bf_merges _ _ _ _ BF) in H. destruct H as (j & x & y & p & rest & _ & Hj & HA & HB & EB & EP & HN & _).
    apply (aget_In str_eqb str_eqb_eq) in HA, HB, HN. cbn [opt_blen] in EP. apply blen_0 in EP. subst p. cbn [app] in EB. subst rest.
    apply nth_error_In in Hj. repeat split; [exists x|exists y|exists (x ++ y)]; (split; [assumption|]); intros z Hz; destruct (BA _ _ Hj z) as (A1 & A2 & A3); auto.
  Qed.

  Lemma spells_apart xs n : spells (b_lookup m) xs n -> xs = [n] \/ (Forall plain_id xs /\ plain_id n).
  Proof.
    induction 1 as [i|xs ys a b r n _ IH1 _ IH2 HM]; [left; reflexivity|]. right. destruct (plain_of_merge _ _ _ _ HM) as (PA & PB & PN).
    split; [|exact PN]. apply Forall_app. split.
    - destruct IH1 as [->|[F _]]; [constructor; [exact PA|constructor]|exact F].
    - destruct IH2 as [->|[F _]]; [constructor; [exact PB|constructor]|exact F].
  Qed.

  Lemma byte_id_not_plain b i : (b < 256)%N -> b_id m (byte_token b) = Some i -> ~ plain_id i.
  Proof.
    intros R E (t & Hin & P). apply (b_id_in _ _ _ _ BF) in E. apply (b_token_inj _ _ _ _ BF _ _ ND) in E, Hin.
    rewrite E in Hin. injection Hin as <-. exact (P _ (byte_like_token b R)).
  Qed.

  Let grouped := fun (g : list (N * nat)) (t : N * nat) => total g = snd t /\ spells (b_lookup m) (map fst g) (fst t).

  Lemma peel_bytes : forall bs is, Forall (fun b => (b < 256)%N) bs -> Forall2 (fun b i => b_id m (byte_token b) = Some i) bs is ->
    forall gs out l, concat gs = map (fun i => (i, 1)) is ++ l -> Forall2 grouped gs out ->
    exists gs' out', out = map (fun i => (i, 1)) is ++ out' /\ concat gs' = l /\ Forall2 grouped gs' out' /\ length gs = length is + length gs'.
  Proof.
    intros bs is R F. revert R. induction F as [|b i bs is Ei F IH]; intros R gs out l E G.
    - exists gs, out. auto.
    - inversion R as [|? ? Rb Rs]; subst. destruct G as [|g t gs out [Tg Sg] G]; [discriminate|]. cbn [concat map app] in E.
      destruct g as [|x g]; [exfalso; exact (spells_nonempty _ _ _ Sg eq_refl)|]. cbn [app] in E. injection E as -> E.
      pose proof (byte_id_not_plain _ _ Rb Ei) as NP.
      destruct (spells_apart _ _ Sg) as [Ex|[Fp _]]; [|inversion Fp; subst; contradiction].
      cbn [map fst] in Ex. injection Ex as Et Eg. apply map_eq_nil in Eg. subst g. cbn [app] in E.
      destruct (IH Rs gs out l E G) as (gs' & out' & -> & E2 & F2 & L2). exists gs', out'. destruct t as [ti tn]. cbn [fst snd] in *. subst ti.
      cbn in Tg. assert (tn = 1) by lia. subst tn. cbn [map app length]. split; [reflexivity|]. split; [exact E2|]. split; [exact F2|lia].
  Qed.

  (** Plain leaves in front are known characters. *)
  Lemma plain_prefix : forall g s rest, text s -> leaf_run s (g ++ rest) -> Forall plain_id (map fst g) ->
    exists x y, s = x ++ y /\ (forall first post, known_run m first x post g) /\ leaf_run y rest.
  Proof.
    induction g as [|[i n] g IH]; intros s rest T R F.
    - exists [], s. split; [reflexivity|]. split; [intros; constructor|exact R].
    - inversion F as [|? ? Fi Fg]; subst. cbn [fst] in Fi. cbn [app] in R. inversion R as [|c s' id l EI R' E1 E2|c s' is l EI F2 R' E1 E2]; subst.
      + inversion T; subst. destruct (IH s' rest) as (x & y & -> & K & R2); [assumption|assumption|assumption|]. exists (c :: x), y. split; [reflexivity|]. split; [|exact R2].
        intros first post. constructor; [rewrite (plain_decorate _ _ _ _ _ _ BF NS); exact EI|apply K].
      + exfalso. inversion T as [|? ? Sc Ts]; subst. pose proof (encode_char_range c Sc) as RG. inversion F2 as [EC|b j bs js Ej F2' EC EJ]; subst is.
        * exact (encode_char_nonempty c (eq_sym EC)).
        * cbn [map app] in E2. injection E2 as -> _ _. rewrite <- EC in RG. inversion RG; subst. eapply byte_id_not_plain; eauto.
  Qed.

  Lemma spelled_groups : forall k gs out s vals, length gs <= k -> Forall2 grouped gs out -> leaf_run s (concat gs) -> text s ->
    Forall2 (fun x v => b_token m (fst x) = Some v) out vals -> spelled vals s.
  Proof.
    induction k as [|k IH]; intros gs out s vals L G R T V.
    - destruct gs; [|cbn in L; lia]. inversion G; subst. inversion V; subst. cbn [concat] in R. inversion R as [|?|c s' is l EI F2 R' E1 E2]; subst; [constructor|].
      exfalso. apply app_eq_nil in E2. destruct E2 as [E2 _]. apply map_eq_nil in E2. subst is. inversion F2 as [E|]. symmetry in E. exact (encode_char_nonempty c E).
    - remember (concat gs) as cg eqn:Ecg. destruct R as [|c s id l EI R|c s is l EI F2 R].
      + destruct gs as [|g gs]; [inversion G; subst; inversion V; subst; constructor|]. exfalso. inversion G as [|? ? ? ? [_ S] _]; subst. symmetry in Ecg. cbn [concat] in Ecg. apply app_eq_nil in Ecg. destruct Ecg as [-> _]. exact (spells_nonempty _ _ _ S eq_refl).
      + destruct G as [|g t gs out [Tg Sg] G]; [discriminate|]. inversion V as [|? v ? vals' Ev V']; subst. cbn [concat] in Ecg. cbn [length] in L. inversion T as [|? ? Tc Ts]; subst.
        destruct (spells_apart _ _ Sg) as [Ex|[Fp PN]].
        * destruct g as [|x [|]]; try discriminate. cbn [map] in Ex. injection Ex as Et. cbn [app] in Ecg. injection Ecg as <- ->. cbn [fst] in Et.
          rewrite <- Et in Ev. assert (v = [c]) as ->. { apply (b_id_in _ _ _ _ BF) in EI. apply (b_token_inj _ _ _ _ BF _ _ ND) in EI. congruence. }
          change (c :: s) with ([c] ++ s). apply spl_plain; [apply short_plain|]. eapply IH; eauto; lia.
        * assert (LR : leaf_run (c :: s) (g ++ concat gs)) by (rewrite <- Ecg; apply lr_known; assumption).
          destruct (plain_prefix g (c :: s) (concat gs) T LR Fp) as (x & y & Es & K & R2). rewrite Es.
          pose proof (spells_text _ _ _ _ BF ND _ _ Sg true x y g (K true y) eq_refl) as SX. rewrite (plain_decorate _ _ _ _ _ _ BF NS) in SX. rewrite Ev in SX. injection SX as ->.
          apply spl_plain.
          -- destruct PN as (t' & Hin & P). apply (b_token_inj _ _ _ _ BF _ _ ND) in Hin. rewrite Ev in Hin. injection Hin as ->. exact P.
          -- eapply IH; eauto; [lia|]. unfold text in *. rewrite Es in T. apply Forall_app in T. apply T.
      + inversion T as [|? ? Sc Ts]; subst. pose proof (encode_char_range c Sc) as RG.
        destruct (peel_bytes _ _ RG F2 gs out l (eq_sym Ecg) G) as (gs' & out' & -> & E2 & G2 & L2).
        assert (NM : c <> mark) by (intros ->; destruct (id_of _ MK) as (i & Ei & _); congruence).
        apply Forall2_app_inv_l in V. destruct V as (v1 & v2 & V1 & V2 & ->).
        assert (E1 : v1 = map byte_token (encode_char c)).
        { clear -V1 F2 BF ND. revert v1 V1. induction F2 as [|b i bs is Ei _ IH]; intros v1 V1; cbn [map] in *; inversion V1; subst; [reflexivity|].
          f_equal; [|apply IH; assumption]. apply (b_id_in _ _ _ _ BF) in Ei. apply (b_token_inj _ _ _ _ BF _ _ ND) in Ei. cbn [fst] in *. congruence. }
        rewrite E1. apply spl_bytes; [exact Sc|exact NM|]. eapply IH; [|exact G2|rewrite E2; exact R|exact Ts|exact V2].
        assert (is <> []) by (intros ->; inversion F2 as [E|]; symmetry in E; exact (encode_char_nonempty c E)). destruct is; [congruence|]. cbn [length] in L2. lia.
  Qed.

  Lemma leaf_total s l : leaf_run s l -> total l = blen s.
  Proof.
    induction 1 as [|c s id l _ _ IH|c s is l _ F _ IH]; [reflexivity| |].
    - rewrite total_cons, IH. reflexivity.
    - rewrite total_app, IH. cbn [blen]. f_equal. rewrite <- encode_char_len.
      clear -F. induction F as [|b i bs is _ _ IH]; [reflexivity|]. cbn [map]. rewrite total_cons, IH. reflexivity.
  Qed.
End bpe_words.

Lemma ranges_within : forall (l : list (nat * nat)) a e, ranges_from a l e -> Forall (fun r => fst r < snd r <= e) l.
Proof.
  assert (LE : forall (l : list (nat * nat)) a e, ranges_from a l e -> a <= e).
  { induction l as [|[x y] l IH]; intros a e H; cbn [ranges_from] in H; [lia|]. destruct H as (H1 & H2 & H3). cbn [fst snd] in *. apply IH in H3. lia. }
  induction l as [|[x y] l IH]; intros a e H; cbn [ranges_from] in H; [constructor|]. destruct H as (H1 & H2 & H3). cbn [fst snd] in *. constructor; [|eapply IH; eauto].
  apply LE in H3. cbn [fst snd]. lia.
Qed.

(** A word that starts with the mark. *)
Lemma bpe_spelled pop vocab merges m draws s :
  heap_ok pop -> built vocab merges None m -> b_suffix m = None -> b_fallback m = true -> NoDup (map snd vocab) ->
  byte_tokens vocab -> In [mark] (map fst vocab) -> bytes_apart merges -> text s -> hd_error s = Some mark ->
  exists toks, bpe_tokenize pop m draws s = Ok toks /\ spelled (map t_value toks) s /\
    Forall (fun t => In (t_value t, t_id t) vocab) toks /\
    Forall (fun t => fst (t_offsets t) < snd (t_offsets t) <= blen s) toks.
Proof.
  intros HP BT NS FB ND BY MK BA T HD. pose proof BT as [D1 (d & unk & sf & fu & fb & ig & B)]. apply build_facts in B.
  destruct (leaves_run _ _ _ B D1 NS FB BY s true T) as (l & L & R).
  assert (MW : forall dr, exists toks, (let! w := merge_word pop m dr s in word_to_tokens m w) = Ok toks).
  { intros dr. pose proof (word_tokens_spec vocab merges None m pop dr s B HP) as W. pose proof (merge_word_spec pop m dr s HP) as X.
    destruct (merge_word pop m dr s) as [w|e|]; cbn [bind] in *; [|rewrite L in X; discriminate|destruct X].
    destruct X as (l' & L' & P & D). apply derives_groups in D.
    assert (IV : Forall (fun x => in_vocab vocab (fst x)) (word_view w)) by (eapply groups_in; [exact B|exact D|]; eapply leaves_in; [exact B|exact L'|discriminate]).
    unfold word_to_tokens. destruct (word_to_tokens_from m w 0) as (ts & -> & _); [|eauto].
    intros i Hi. eapply b_token_has; [exact B|]. unfold get_chars in Hi. apply in_map_iff in Hi. destruct Hi as (x & <- & Hx).
    rewrite Forall_forall in IV. apply (IV (sy_c x, sy_len x)). unfold word_view. apply in_map_iff. exists x. auto. }
  assert (OK : exists toks, bpe_tokenize pop m draws s = Ok toks).
  { unfold bpe_tokenize, tokenize_plain. destruct (is_nil s); [eauto|]. destruct (MW no_draw) as (t1 & E1). destruct (MW draws) as (t2 & E2).
    rewrite E1, E2. destruct (b_dropout m), (if b_ignore_merges m then b_id m s else None); eauto. }
  destruct OK as (toks & H). exists toks. split; [exact H|].
  assert (V : Forall (fun t => In (t_value t, t_id t) vocab) toks) by (apply Forall_forall; intros t Ht; eapply C33_values; eauto).
  split; [|split; [exact V|]].
  - apply bpe_tokenize_cases in H. destruct H as [[-> ->]|[(_ & _ & id & _ & ->)|(_ & draws' & H)]]; [constructor| |].
    + cbn [map t_value]. rewrite <- (app_nil_r s) at 2. apply spl_plain; [apply marked_plain; exact HD|constructor].
    + pose proof (word_tokens_spec vocab merges None m pop draws' s B HP) as W. rewrite H in W. destruct W as (l' & w & L' & P & (gs & EG & G) & _ & E1 & E2 & E3).
      rewrite L in L'. injection L' as <-. eapply (spelled_groups _ _ _ B D1 ND NS FB MK BA (length gs) gs (word_view w)); [lia|exact G|rewrite EG; exact R|exact T|].
      assert (E1' : map t_id toks = map fst (word_view w)) by (rewrite E1; unfold get_chars, word_view; rewrite map_map; reflexivity).
      clear -E1' E3. revert E1'. generalize (word_view w). induction E3 as [|t toks E _ IH]; intros [|x v] E1'; try discriminate; [constructor|].
      cbn [map] in *. injection E1' as Ex E1'. constructor; [congruence|auto].
  - destruct (C33_cover _ _ _ _ _ _ _ _ HP BT H) as (e & RG & CV). rewrite CV in RG.
    + apply ranges_within in RG. rewrite Forall_map in RG. exact RG.
    + intros p c q E. rewrite (plain_decorate _ _ _ _ _ _ B NS). unfold known_char, byte_char. rewrite (plain_decorate _ _ _ _ _ _ B NS).
      right. left. split; [|reflexivity]. split; [exact FB|]. intros b Hb. rewrite (plain_decorate _ _ _ _ _ _ B NS) in Hb.
      assert (Tc : text [c]) by (rewrite E in T; unfold text in *; apply Forall_app in T; destruct T as [_ T]; inversion T; subst; constructor; [assumption|constructor]).
      pose proof (encode_utf8_range _ Tc) as RB. rewrite Forall_forall in RB. destruct (id_of _ _ _ B D1 _ (BY b (RB b Hb))) as (i & Ei & _). congruence.
Qed.

(** ** Replacing one character by another *)
Definition swap (a b : char) (s : str) : str := map (fun c => if N.eqb c a then b else c) s.

Lemma literal_char_segs a s : exists segs, covers_text (regex_find_matches (literal_scan [a] 0 0) s) segs s /\
  char_flags segs = map (fun c => (c, N.eqb c a)) s /\ Forall (fun sg : str * bool => snd sg = true -> length (fst sg) = 1) segs.
Proof.
  destruct (C16_string [a] s ltac:(discriminate)) as (segs & C & L & _). exists segs. split; [exact C|]. destruct C as [-> _]. clear -L.
  induction segs as [|[t f] segs IH]; [split; [reflexivity|constructor]|]. cbn [leftmost_literal] in L. destruct L as [Lt L]. destruct (IH L) as [IH1 IH2]. split.
  - cbn [char_flags flat_map map concat fst snd]. fold (char_flags segs). rewrite map_app, IH1. f_equal. destruct f.
    + subst t. cbn. rewrite N.eqb_refl. reflexivity.
    + apply map_ext_in. intros c Hc. destruct (N.eqb_spec c a) as [->|]; [|reflexivity]. exfalso.
      apply List.in_split in Hc. destruct Hc as (u & v & ->). apply (Lt u (a :: v) (v ++ concat (map fst segs)) eq_refl); [discriminate|reflexivity].
  - constructor; [|exact IH2]. cbn [fst snd]. intros ->. subst t. reflexivity.
Qed.

Lemma literal_replace ns a b : live ns -> is_scalar b = true ->
  exists ns', n_replace ns (regex_find_matches (literal_scan [a] 0 0) (n_normalized ns)) [b] = Ok ns' /\ live ns' /\ n_normalized ns' = swap a b (n_normalized ns).
Proof.
  intros (A & S & T) Sc. destruct (literal_char_segs a (n_normalized ns)) as (segs & C & Fl & L).
  destruct (C20_replace ns _ segs [b] A C) as (ns' & csegs & E & Q & S1 & M & S2 & A').
  destruct (C20_replace_text ns _ segs [b] A C) as (ns2 & E2 & TX). rewrite E in E2. injection E2 as <-.
  assert (TN : n_normalized ns' = swap a b (n_normalized ns)) by (rewrite TX; apply (flags_text (fun c => N.eqb c a)); assumption).
  exists ns'. split; [exact E|]. split; [|exact TN]. split; [exact A'|]. split.
  - apply (solid_shows _ _ S1) in S. apply (solid_shows _ _ S2). clear -S M L. subst segs. revert L S. generalize (0, 0) as prev.
    induction csegs as [|[t f] csegs IH]; intros prev L S; [constructor|]. cbn [map fst snd concat spec_replace] in *. inversion L as [|? ? L1 L2]; subst.
    apply Forall_app in S. destruct S as [S1 S2]. apply Forall_app. split; [|apply IH; assumption]. destruct f; [|exact S1].
    specialize (L1 eq_refl). cbn [fst] in L1. unfold ctext in L1. rewrite map_length in L1. destruct t as [|[c x] [|]]; try discriminate.
    cbn [map]. constructor; [|constructor]. inversion S1; subst. assumption.
  - rewrite TN. unfold swap. apply Forall_map. eapply Forall_impl; [|exact T]. intros c Hc. cbn beta. destruct (N.eqb c a); assumption.
Qed.

Lemma literal_replace_source ns a content : aligned ns ->
  exists ns', n_replace ns (regex_find_matches (literal_scan [a] 0 0) (n_normalized ns)) content = Ok ns' /\ aligned ns' /\ same_source ns ns'.
Proof.
  intros A. destruct (literal_char_segs a (n_normalized ns)) as (segs & C & _). destruct (C20_replace ns _ segs content A C) as (ns' & csegs & E & Q & _ & _ & _ & A'). eauto.
Qed.

(** ** The normalizer *)
Lemma spm_norm_ok T : norm_ok (run_normalizer T spm_normalizer).
Proof.
  intros ns A. unfold run_normalizer, spm_normalizer. cbn [normalize]. unfold prepend_normalize, replace_normalize.
  assert (H1 : exists ns1, (if is_nil (n_normalized ns) then Ok ns else n_prepend ns [mark]) = @Ok unit _ ns1 /\ aligned ns1 /\ same_source ns ns1).
  { destruct (n_normalized ns) as [|c s] eqn:E; cbn [is_nil]; [exists ns; split; [reflexivity|]; split; [exact A|split; reflexivity]|].
    assert (NE : n_normalized ns <> []) by (rewrite E; discriminate).
    destruct (prepend_ok ns mark A NE) as (ns2 & E2 & Q & _ & A2 & _). eauto. }
  destruct H1 as (ns1 & -> & A1 & Q1). cbn [bind]. destruct (literal_replace_source ns1 32%N [mark] A1) as (ns2 & -> & A2 & Q2). cbn [bind].
  split; [exact A2|]. destruct Q1, Q2. split; congruence.
Qed.

Lemma spm_norm_text T ns : live ns -> n_normalized ns <> [] ->
  live (run_normalizer T spm_normalizer ns) /\ n_normalized (run_normalizer T spm_normalizer ns) = mark :: swap 32 mark (n_normalized ns).
Proof.
  intros L NE. unfold run_normalizer, spm_normalizer. cbn [normalize]. unfold prepend_normalize, replace_normalize.
  destruct (n_normalized ns) as [|c s] eqn:E; [congruence|]. cbn [is_nil].
  destruct (prepend_live ns mark L eq_refl) as (ns1 & -> & L1 & T1). cbn [bind]. rewrite E in T1.
  destruct (literal_replace ns1 32%N mark L1 eq_refl) as (ns2 & -> & L2 & T2). cbn [bind]. split; [exact L2|]. rewrite T2, T1. reflexivity.
Qed.

(** ** The decoder *)
Lemma swap_app a b x y : swap a b (x ++ y) = swap a b x ++ swap a b y.
Proof. apply map_app. Qed.
Lemma swap_absent a b s : ~ In a s -> swap a b s = s.
Proof.
  intros H. unfold swap. rewrite <- (map_id s) at 2. apply map_ext_in. intros c Hc. destruct (N.eqb_spec c a) as [->|]; [contradiction|reflexivity].
Qed.
Lemma swap_back a b s : ~ In b s -> swap b a (swap a b s) = s.
Proof.
  intros H. unfold swap. rewrite map_map. rewrite <- (map_id s) at 2. apply map_ext_in. intros c Hc. destruct (N.eqb_spec c a) as [->|N].
  - rewrite N.eqb_refl. reflexivity.
  - destruct (N.eqb_spec c b) as [->|]; [contradiction|reflexivity].
Qed.

Lemma swap_plain t : plain_token t -> plain_token (swap mark 32 t).
Proof.
  intros P b B. destruct (in_dec N.eq_dec mark t) as [I|I].
  - assert (J : In 32%N (swap mark 32 t)) by (unfold swap; apply in_map_iff; exists mark; split; [reflexivity|exact I]).
    destruct (byte_like_chars _ _ _ B J). congruence.
  - rewrite swap_absent in B by exact I. exact (P b B).
Qed.
Lemma swap_byte_token b : (b < 256)%N -> swap mark 32 (byte_token b) = byte_token b.
Proof. intros R. apply swap_absent. intros I. destruct (byte_like_chars _ _ _ (byte_like_token b R) I). congruence. Qed.

Lemma spelled_swap ts s : spelled ts s -> spelled (map (swap mark 32) ts) (swap mark 32 s).
Proof.
  induction 1 as [|t ts s P _ IH|c ts s S N _ IH]; [constructor| |].
  - cbn [map]. rewrite swap_app. apply spl_plain; [apply swap_plain; exact P|exact IH].
  - rewrite map_app, map_map. assert (E : map (fun x => swap mark 32 (byte_token x)) (encode_char c) = map byte_token (encode_char c)).
    { apply map_ext_in. intros b Hb. apply swap_byte_token. pose proof (encode_char_range c S) as R. rewrite Forall_forall in R. auto. }
    rewrite E. cbn [swap map]. replace (N.eqb c mark) with false by (symmetry; apply N.eqb_neq; exact N). fold (swap mark 32 s). apply spl_bytes; assumption.
Qed.

Lemma replace_swap a b ts : replace_decode (literal_scan [a] 0 0) [b] ts = @Ok unit _ (map (swap a b) ts).
Proof.
  unfold replace_decode. induction ts as [|t ts IH]; [reflexivity|]. cbn [map_res map].
  destruct (literal_char_segs a t) as (segs & [C1 C2] & Fl & L). pose proof (@replace_parts_ok unit [b] segs []) as P. cbn [app] in P. change (blen []) with 0 in P.
  rewrite <- C1, <- C2 in P. rewrite P. cbn [bind]. rewrite IH. cbn [bind]. do 2 f_equal. apply (flags_text (fun c => N.eqb c a)); assumption.
Qed.

Lemma flush_text u : text u -> concat (flush_bytes (encode_utf8 u)) = u.
Proof.
  intros T. unfold flush_bytes. destruct (is_nil (encode_utf8 u)) eqn:E.
  - destruct u as [|c u]; [reflexivity|]. exfalso. unfold encode_utf8 in E. cbn [flat_map] in E. destruct (encode_char c) eqn:EC; [exact (encode_char_nonempty c EC)|discriminate].
  - rewrite (from_utf8_encode u T). cbn. apply app_nil_r.
Qed.

Lemma fallback_spelled ts s : spelled ts s -> forall u, text u -> exists outs, @fallback_loop unit ts (encode_utf8 u) = Ok outs /\ concat outs = u ++ s.
Proof.
  induction 1 as [|t ts s P _ IH|c ts s S N _ IH]; intros u T.
  - cbn [fallback_loop]. eexists. split; [reflexivity|]. rewrite flush_text, app_nil_r by exact T. reflexivity.
  - cbn [fallback_loop]. destruct (@byte_of_token_spec unit t) as (o & -> & Sp). cbn [bind]. destruct o as [b|]; [exfalso; apply (P b), Sp; reflexivity|].
    destruct (IH [] ltac:(constructor)) as (outs & E & C). change (encode_utf8 []) with (@nil N) in E. rewrite E. cbn [bind]. eexists. split; [reflexivity|].
    rewrite concat_app. cbn [concat]. rewrite flush_text by exact T. cbn [app] in C. rewrite C. reflexivity.
  - assert (F : Forall2 byte_like (map byte_token (encode_char c)) (encode_char c)).
    { pose proof (encode_char_range c S) as R. clear -R. induction R as [|b l Hb _ IH]; cbn [map]; constructor; [apply byte_like_token; exact Hb|exact IH]. }
    rewrite (fallback_loop_run _ _ _ _ F). destruct (IH (u ++ [c])) as (outs & E & C); [apply Forall_app; split; [exact T|constructor; [exact S|constructor]]|].
    rewrite encode_utf8_app in E. unfold encode_utf8 at 2 in E. cbn [flat_map] in E. rewrite app_nil_r in E. exists outs. split; [exact E|]. rewrite C, <- app_assoc. reflexivity.
Qed.

Lemma strip_one t : strip_token 32%N 1 0 t = @Ok unit _ (drop_one_space t).
Proof.
  unfold strip_token, drop_one_space. destruct t as [|c t]; [reflexivity|]. cbn [strip_start strip_stop bind]. rewrite rev_length. unfold slice.
  destruct (N.eqb c 32).
  - cbn [strip_start]. cbn [length skipn]. replace (1 <=? S (length t)) with true by lia. rewrite Nat.leb_refl. cbn [andb].
    replace (S (length t) - 1) with (length t) by lia. rewrite firstn_all. reflexivity.
  - rewrite Nat.leb_refl. cbn [Nat.leb andb skipn]. rewrite Nat.sub_0_r, firstn_all. reflexivity.
Qed.

Lemma spm_decodes ts s : spelled ts s -> DecodersModel.decode_tokens spm_decoder ts = Ok (drop_one_space (swap mark 32 s)).
Proof.
  intros H. unfold DecodersModel.decode_tokens, spm_decoder. cbn [decode_chain]. rewrite replace_swap. cbn [bind].
  destruct (fallback_spelled _ _ (spelled_swap _ _ H) [] ltac:(constructor)) as (outs & E & C). change (encode_utf8 []) with (@nil N) in E. cbn [app] in C.
  unfold fallback_decode. rewrite E. cbn [bind map_res]. rewrite C, strip_one. cbn [bind concat]. rewrite app_nil_r. reflexivity.
Qed.

(** ** Added tokens searched in the text as given *)
Lemma aset_In (k : N) (v : added_token) : forall l x, In x (aset N.eqb k v l) -> x = (k, v) \/ In x l.
Proof.
  induction l as [|[k' v'] l IH]; intros x H; cbn [aset] in H; [destruct H as [<-|[]]; auto|]. destruct (N.eqb_spec k k') as [<-|_].
  - destruct H as [<-|H]; [left; reflexivity|right; right; exact H].
  - destruct H as [<-|H]; [right; left; reflexivity|]. destruct (IH _ H); [auto|right; right; assumption].
Qed.

Definition from_offer (offered : list added_token) (av : added_vocab) : Prop := forall i t, In (i, t) (av_map_r av) -> In t offered.

Lemma loop_offer m norm : forall ts av next n offered, Forall (fun t => at_normalized t = false) ts -> from_offer offered av ->
  add_loop m norm ts av next n = add_loop m None ts av next n /\
  forall av' r, add_loop m None ts av next n = (av', r) -> r <> None /\ from_offer (offered ++ ts) av' /\ av_ntrie av' = av_ntrie av.
Proof.
  induction ts as [|t ts IH]; intros av next n offered F O.
  - split; [reflexivity|]. cbn [add_loop]. intros av' r E. injection E as <- <-. rewrite app_nil_r. split; [discriminate|auto].
  - inversion F as [|? ? Ft Fs]; subst. cbn [add_loop]. rewrite Ft. cbn [negb]. rewrite orb_true_r.
    assert (A1 : forall av1 nx b, add_one m None t av next = (av1, nx, b) -> from_offer (offered ++ [t]) av1 /\ av_ntrie av1 = av_ntrie av).
    { intros av1 nx b. unfold add_one. assert (O' : from_offer (offered ++ [t]) av) by (intros i x Hx; apply in_or_app; left; eapply O; eauto).
      destruct (is_nil (at_content t)); [intros E; injection E as <- _ _; auto|].
      match goal with |- context [if ?b then _ else _] => destruct b end; [intros E; injection E as <- _ _; auto|].
      destruct (av_token_to_id av m (at_content t)) as [i|]; intros E; injection E as <- _ _; (split; [|reflexivity]); intros j x Hx; cbn [av_map_r] in Hx; apply aset_In in Hx;
        destruct Hx as [E|Hx]; [injection E as -> ->; apply in_or_app; right; left; reflexivity|eapply O'; eauto|injection E as -> ->; apply in_or_app; right; left; reflexivity|eapply O'; eauto]. }
    destruct (add_one m None t av next) as [[av1 nx] b] eqn:E1. destruct (A1 _ _ _ eq_refl) as [O1 N1].
    destruct (IH av1 nx (if b then n + 1 else n) (offered ++ [t]) Fs O1) as [H1 H2]. split.
    + destruct norm; [rewrite H1; reflexivity|reflexivity].
    + intros av' r E. destruct (H2 av' r E) as (R & O2 & N2). split; [exact R|]. rewrite <- app_assoc in O2. split; [exact O2|congruence].
Qed.

Lemma plain_normalized av offered : from_offer offered av -> Forall (fun t => at_normalized t = false) offered -> normalized_pairs av = [].
Proof.
  intros O F. unfold normalized_pairs. unfold from_offer in O. revert O. induction (av_map_r av) as [|[i t] l IH]; intros O; [reflexivity|]. cbn [flat_map fst snd].
  rewrite Forall_forall in F. rewrite (F t (O i t (or_introl eq_refl))). cbn [app]. apply IH. intros j x Hx. apply (O j x). right. exact Hx.
Qed.

Lemma refresh_offer build av offered av' ok : from_offer offered av -> Forall (fun t => at_normalized t = false) offered -> av_ntrie av = None ->
  av_refresh build av = (av', ok) -> from_offer offered av' /\ av_ntrie av' = None.
Proof.
  intros O F N. unfold av_refresh. rewrite (plain_normalized _ _ O F). cbn [is_nil orb].
  destruct (is_nil (plain_pairs av) || build (plain_pairs av)); intros E; injection E as <- _; auto.
Qed.

Lemma recache_offer norm : forall l c, Forall (fun it : N * added_token => at_normalized (snd it) = false) l -> recache norm l c = (c, true).
Proof.
  induction l as [|[i t] l IH]; intros c F; [reflexivity|]. inversion F as [|? ? F1 F2]; subst. cbn [recache snd] in *. rewrite F1. destruct norm; apply IH; exact F2.
Qed.

Lemma plain_history build m NF av offered taken : added_history build m NF av offered taken -> Forall (fun t => at_normalized t = false) offered ->
  added_history build m no_norm av offered taken /\ from_offer offered av /\ av_ntrie av = None.
Proof.
  induction 1 as [|av offered taken norm ts av' n _ IH _ A|av offered taken norm ts av' _ IH _ A|av offered taken norm av' ok _ IH _ A|av offered taken b _ IH]; intros F.
  - split; [constructor|]. split; [intros i t []|reflexivity].
  - apply Forall_app in F. destruct F as [F1 F2]. destruct (IH F1) as (H & O & NT).
    unfold add_tokens in A. destruct (loop_offer m norm ts av (first_next_id av m) 0 offered F2 O) as [L1 L2]. rewrite L1 in A.
    destruct (add_loop m None ts av (first_next_id av m) 0) as [av1 [k|]] eqn:EL; [|discriminate]. destruct (L2 _ _ eq_refl) as (_ & O1 & N1).
    destruct (av_refresh build av1) as [av2 ok] eqn:ER. destruct ok; [|discriminate]. injection A as <- <-.
    assert (F12 : Forall (fun t => at_normalized t = false) (offered ++ ts)) by (apply Forall_app; auto).
    split; [|eapply refresh_offer; eauto; congruence].
    eapply (ah_add _ _ _ av offered taken None ts av2 k); [exact H|discriminate|]. unfold add_tokens. rewrite EL, ER. reflexivity.
  - apply Forall_app in F. destruct F as [F1 F2]. destruct (IH F1) as (H & O & NT).
    unfold add_tokens in A. destruct (loop_offer m norm ts av (first_next_id av m) 0 offered F2 O) as [L1 L2]. rewrite L1 in A.
    destruct (add_loop m None ts av (first_next_id av m) 0) as [av1 [k|]] eqn:EL; destruct (L2 _ _ eq_refl) as (R & O1 & N1); [|congruence].
    destruct (av_refresh build av1) as [av2 ok] eqn:ER. destruct ok; [discriminate|]. injection A as <-.
    assert (F12 : Forall (fun t => at_normalized t = false) (offered ++ ts)) by (apply Forall_app; auto).
    split; [|eapply refresh_offer; eauto; congruence].
    eapply (ah_fail _ _ _ av offered taken None ts av2); [exact H|discriminate|]. unfold add_tokens. rewrite EL, ER. reflexivity.
  - destruct (IH F) as (H & O & NT).
    assert (FM : Forall (fun it : N * added_token => at_normalized (snd it) = false) (av_map_r av)).
    { apply Forall_forall. intros [i t] Hit. rewrite Forall_forall in F. apply F. eapply O; eauto. }
    assert (A' : av_refresh_normalized build None av = (av', ok)) by (unfold av_refresh_normalized in *; rewrite recache_offer in * by exact FM; exact A).
    split; [eapply ah_renormalize; [exact H| |exact A']; discriminate|].
    unfold av_refresh_normalized in A'. rewrite recache_offer in A' by exact FM. eapply refresh_offer; [| | |exact A']; [exact O|exact F|exact NT].
  - destruct (IH F) as (H & O & NT). split; [apply ah_encode_special; exact H|]. auto.
Qed.

(** ** The sections of a text *)
Definition wrote (part : bool * str) : str := if fst part then snd part else mark :: swap 32 mark (snd part).

(** A split of the first pass and what the second makes of it. *)
Definition normalised (a b : split) : Prop :=
  sp_tokens b = sp_tokens a /\ live (sp_norm b) /\
  (sp_tokens a = None -> n_normalized (sp_norm b) = mark :: swap 32 mark (n_normalized (sp_norm a))) /\
  (sp_tokens a <> None -> b = a).

Lemma second_pass sp wd av T : forall l i l', Forall (extracted av) l ->
  split_loop (fun _ ns => split_with_indices sp wd av None (run_normalizer T spm_normalizer ns)) i l = Ok l' -> Forall2 normalised l l'.
Proof.
  induction l as [|x l IH]; intros i l' F H; cbn [split_loop] in H; [injection H as <-; constructor|]. inversion F as [|? ? (NE & LV & _) Fl]; subst.
  destruct (sp_tokens x) as [ts|] eqn:Et.
  - apply bind_ok in H. destruct H as (r & E1 & H). injection H as <-. constructor; [|eapply IH; eauto]. unfold normalised. rewrite Et. split; [reflexivity|]. split; [exact LV|]. split; [discriminate|reflexivity].
  - apply bind_ok in H. destruct H as (new & E0 & H). apply bind_ok in H. destruct H as (r & E1 & H). injection H as <-.
    destruct (spm_norm_text T _ LV NE) as [L2 T2]. set (ns := run_normalizer T spm_normalizer (sp_norm x)) in *.
    destruct (split_with_indices_cuts sp wd av None ns (proj1 L2) ltac:(discriminate)) as (lm & sps & EM & E2 & FS & C). rewrite E0 in E2. injection E2 as <-.
    assert (lm = [(None, (0, blen (n_normalized ns)))]) as ->. { unfold find_matches in EM. rewrite T2 in EM. cbn [is_nil] in EM. injection EM as <-. rewrite T2. reflexivity. }
    pose proof (cut_live _ _ L2 C) as FL. inversion FS as [|? y ? ? [Y1 Y2] FS']; subst. inversion FS'; subst. cbn [fst snd] in *. rewrite str_get_full in Y1. injection Y1 as Y1.
    cbn [map] in FL. inversion FL; subst. unfold keep_nonempty. cbn [filter]. rewrite <- Y1, T2. cbn [is_nil negb app]. constructor; [|eapply IH; eauto].
    unfold normalised. rewrite Et, Y2, <- Y1, T2. split; [reflexivity|]. split; [assumption|]. split; [reflexivity|congruence].
Qed.

Lemma spm_extract sp wd build m av offered taken T s :
  model_ok m -> dense m -> added_history build m no_norm av offered taken -> av_ntrie av = None -> no_strips av -> text s ->
  exists pt l1 l parts,
    extract_and_normalize sp wd av (run_normalizer T spm_normalizer) s = Ok pt /\ inside_history s pt /\
    Forall (extracted av) l1 /\ Forall2 normalised l1 (pt_splits pt) /\
    find_matches sp wd av s (av_trie av) = Ok l /\ cut_as s l parts /\
    l1 = keep_nonempty l1 /\
    (s <> [] -> parts = map (fun x => (match sp_tokens x with Some _ => true | None => false end, n_normalized (sp_norm x))) l1) /\
    (s = [] -> parts = [(false, [])] /\ l1 = []).
Proof.
  intros MO D H NT NS TX. pose proof (tries_history _ _ _ _ _ _ MO D H) as TI. pose proof (tries_known _ _ TI) as [K1 K2].
  assert (S1 : safe_trie sp av (av_trie av)) by (intros pats P; split; [apply no_strips_safe; exact NS|auto]).
  destruct (extract_inside sp wd av (run_normalizer T spm_normalizer) s) as (pt & E & I).
  { exact S1. }
  { intros pats P. rewrite NT in P. discriminate. }
  { apply spm_norm_ok. }
  pose proof E as E'. unfold extract_and_normalize in E'. apply bind_ok in E'. destruct E' as (pt1 & E1 & E2). rewrite NT in E2.
  unfold pt_split in E1, E2. apply bind_ok in E1. destruct E1 as (l1 & L1 & E1). injection E1 as <-. apply bind_ok in E2. destruct E2 as (l2 & L2 & E2). injection E2 as <-.
  cbn [pt_splits pt_original] in *. destruct TI as [T1 T2].
  assert (F1 : Forall (extracted av) l1).
  { eapply pass_extracted; [exact NS| |exact L1|].
    - intros pats p i EP Hin. apply (T1 _ _ _ EP Hin).
    - constructor; [|constructor]. cbn [sp_tokens sp_norm]. split; [|congruence]. intros _. split; [apply nfrom_aligned|]. split; [apply nfrom_solid|exact TX]. }
  destruct (split_with_indices_cuts sp wd av (av_trie av) (nfrom s) (nfrom_aligned s) S1) as (l & sps & EM & ES & FS & C).
  destruct (find_matches_tiles sp wd av s (av_trie av) S1) as (l0 & EM' & _ & NE & EM0). change (n_normalized (nfrom s)) with s in EM. rewrite EM in EM'. injection EM' as <-.
  unfold pre_from, pre_from_norm in L1. cbn [pt_splits split_loop sp_tokens sp_norm] in L1. rewrite ES in L1. cbn [bind] in L1. injection L1 as L1. rewrite app_nil_r in L1.
  exists (mkPre (pt_original (pre_from s)) l2), l1, l, (map (fun x => (match sp_tokens x with Some _ => true | None => false end, n_normalized (sp_norm x))) sps).
  split; [exact E|]. split; [exact I|]. split; [exact F1|]. split; [eapply second_pass; eauto|]. split; [exact EM|].
  assert (KN : s <> [] -> keep_nonempty sps = sps).
  { intros NZ. specialize (NE NZ). clear -FS NE. unfold keep_nonempty. induction FS as [|x y l sps [Y1 _] _ IH]; [reflexivity|]. cbn [filter].
    specialize (NE x (or_introl eq_refl)) as NX. change (n_normalized (nfrom s)) with s in Y1. apply str_get_inv in Y1. destruct Y1 as (u & v & _ & B1 & B2).
    destruct (n_normalized (sp_norm y)) as [|c z]; [cbn [blen] in B2; lia|]. cbn [is_nil negb]. f_equal. apply IH. intros w Hw. apply NE. right. exact Hw. }
  split; [|split; [|split]].
  - split.
    + rewrite map_map. cbn [snd]. apply cut_drops in C. apply drops_none in C. cbn [n_normalized nfrom] in C. rewrite map_map in C. symmetry. exact C.
    + clear -FS. induction FS as [|x y l sps [Y1 Y2] _ IH]; [constructor|]. cbn [map]. constructor; [|exact IH]. cbn [fst snd]. split; [exact Y1|].
      rewrite Y2. destruct (fst x); reflexivity.
  - rewrite <- L1. unfold keep_nonempty. clear. induction sps as [|x l IH]; [reflexivity|]. cbn [filter]. destruct (negb (is_nil (n_normalized (sp_norm x)))) eqn:E; [|exact IH]. cbn [filter]. rewrite E. f_equal. exact IH.
  - intros NZ. rewrite <- L1, (KN NZ). reflexivity.
  - intros Z. specialize (EM0 Z). subst l. inversion FS as [|? y ? ? [Y1 Y2] FS']; subst. inversion FS'; subst. cbn [fst snd] in *. cbn in Y1. injection Y1 as Y1.
    cbn [map]. rewrite Y2, <- Y1. split; [reflexivity|]. unfold keep_nonempty. cbn [filter]. rewrite <- Y1. reflexivity.
Qed.

(** ** The ids of a text *)
Section spm_text.
  Context (T : NormalizersModel.tables) (pop : list merge -> option (merge * list merge)).
  Context (vocab : list (str * N)) (merges : list (str * str)) (m : bpe) (draws : str -> nat -> bool).
  Context (build : list (str * N) -> bool) (av : added_vocab) (offered taken : list added_token).
  Context (HP : heap_ok pop) (BT : built vocab merges None m) (NS : b_suffix m = None) (FB : b_fallback m = true).
  Context (ND : NoDup (map snd vocab)) (BY : byte_tokens vocab) (MK : In [mark] (map fst vocab)) (BA : bytes_apart merges).
  Context (DN : dense (bpe_vocabulary m)) (AH : added_history build (bpe_vocabulary m) no_norm av offered taken).
  Context (FO : from_offer offered av) (NT : av_ntrie av = None) (PA : Forall plain_added offered).

  Let f : nstring -> res unit (list token) := fun ns => bpe_model pop m draws (n_normalized ns).

  Lemma registered_plain i t : aget N.eqb i (av_map_r av) = Some t -> In t offered /\ plain_added t.
  Proof. intros E. apply (aget_In N.eqb N.eqb_eq) in E. apply FO in E. rewrite Forall_forall in PA. auto. Qed.

  Lemma section_spelled a b : extracted av a -> normalised a b ->
    exists b', tokenize_one f b = Ok b' /\ tokenised b b' /\ Forall (token_named (bpe_vocabulary m) av) (tokens_in b') /\
      spelled (map t_value (tokens_in b')) (wrote (match sp_tokens a with Some _ => true | None => false end, n_normalized (sp_norm a))).
  Proof.
    intros (NE & LV & AD) (ET & LB & TX & SM). unfold tokenize_one. rewrite ET. destruct (sp_tokens a) as [ts|] eqn:Ea.
    - assert (b = a) as -> by (apply SM; discriminate). destruct (AD ts eq_refl) as (i & t & -> & E & C). exists a. split; [reflexivity|].
      destruct (registered_plain _ _ E) as [_ (_ & _ & _ & PL)]. rewrite C in PL.
      unfold tokenised, has_tokens, tokens_in. rewrite Ea. split; [split; [reflexivity|]; split; [reflexivity|]|split].
      + constructor; [|constructor]. unfold token_fits. cbn [t_offsets fst snd]. unfold n_len. destruct (n_normalized (sp_norm a)) as [|c x]; [congruence|]. cbn [blen]. pose proof (len_utf8_pos c). lia.
      + constructor; [|constructor]. unfold token_named. cbn [t_id t_value]. rewrite <- C. eapply added_named; eauto. eapply bpe_model_ok; eauto.
      + cbn [map t_value wrote fst snd]. unfold wrote. cbn [fst snd]. rewrite <- (app_nil_r (n_normalized (sp_norm a))) at 2. apply spl_plain; [exact PL|constructor].
    - specialize (TX eq_refl). destruct LB as (AB & SB & TB).
      destruct (bpe_spelled pop vocab merges m (draws (n_normalized (sp_norm b))) (n_normalized (sp_norm b)) HP BT NS FB ND BY MK BA TB) as (toks & E1 & S1 & V1 & O1).
      { rewrite TX. reflexivity. }
      unfold f, bpe_model. rewrite E1. cbn [bind]. eexists. split; [reflexivity|]. split; [split; [reflexivity|]; split; [reflexivity|exact O1]|].
      unfold tokens_in. cbn [sp_tokens]. split; [|unfold wrote; cbn [fst snd]; rewrite <- TX; exact S1].
      eapply Forall_impl; [|exact V1]. intros t. eapply vocab_named; eauto.
  Qed.

  Lemma sections_spelled : forall l1 l2, Forall (extracted av) l1 -> Forall2 normalised l1 l2 ->
    exists l3, map_res (tokenize_one f) l2 = Ok l3 /\ Forall2 tokenised l2 l3 /\ Forall (token_named (bpe_vocabulary m) av) (flat_map tokens_in l3) /\
      spelled (map t_value (flat_map tokens_in l3)) (flat_map wrote (map (fun x => (match sp_tokens x with Some _ => true | None => false end, n_normalized (sp_norm x))) l1)).
  Proof.
    intros l1 l2 F G. revert F. induction G as [|a b l1 l2 H _ IH]; intros F; [exists []; repeat split; constructor|]. inversion F as [|? ? Fa Fl]; subst.
    destruct (section_spelled a b Fa H) as (b' & E & Tk & Nm & Sp). destruct (IH Fl) as (l3 & E3 & F3 & N3 & S3). exists (b' :: l3). cbn [map_res]. rewrite E. cbn [bind]. rewrite E3. cbn [bind].
    split; [reflexivity|]. split; [constructor; assumption|]. cbn [flat_map map]. rewrite map_app. split; [apply Forall_app; auto|]. apply spelled_app; assumption.
  Qed.

  Lemma spm_ids t ty ot s : text s ->
    tz_added t = av -> tz_normalizer t = run_normalizer T spm_normalizer -> tz_pre_tokenizer t = None -> tz_model t = bpe_model pop m draws -> tz_truncation t = None ->
    (exists e, encode_part t ty ot None s = Ok e) /\
    exists toks l parts,
      (forall e, encode_part t ty ot None s = Ok e -> ids e = map t_id toks) /\ Forall (token_named (bpe_vocabulary m) av) toks /\
      find_matches (tz_space t) (tz_word t) av s (av_trie av) = Ok l /\ cut_as s l parts /\
      (forall x, In (true, x) parts -> exists tk, In tk offered /\ at_content tk = x) /\
      (s <> [] -> spelled (map t_value toks) (flat_map wrote parts)) /\
      (s = [] -> toks = [] /\ parts = [(false, [])]).
  Proof.
    intros TX H3 H4 H5 H6 H7.
    assert (NST : no_strips av) by (intros i x E; destruct (registered_plain _ _ E) as (_ & _ & A & B & _); auto).
    destruct (spm_extract (tz_space t) (tz_word t) build (bpe_vocabulary m) av offered taken T s) as (pt & l1 & l & parts & E1 & I1 & X1 & G1 & EM & CA & _ & P1 & P2); auto; [eapply bpe_model_ok; eauto|].
    destruct (sections_spelled _ _ X1 G1) as (l3 & E3 & F3 & N3 & S3).
    assert (EP : encode_part t ty ot None s = into_encoding (mkPre (pt_original pt) l3) None ty ot).
    { unfold encode_part. rewrite H3, H4, E1. cbn [bind]. unfold do_pre_tokenize. rewrite H5. cbn [bind]. unfold do_tokenize, token_limit. rewrite H7.
      unfold tokenize_in. rewrite H6. fold f. unfold pt_tokenize. rewrite E3. reflexivity. }
    rewrite EP. split.
    - apply ready_encodes; [eapply tokenised_ready; eauto|]. cbn [pt_splits]. clear -F3 G1.
      assert (SL : Forall (fun x => solid (sp_norm x)) (pt_splits pt)) by (clear F3; induction G1 as [|a b la lb (_ & (_ & S & _) & _) _ IH]; constructor; assumption). clear G1.
      induction F3 as [|a b la lb (E & _) _ IH]; [constructor|]. inversion SL; subst. constructor; [rewrite E; assumption|auto].
    - exists (flat_map tokens_in l3), l, parts. split; [intros e He; apply into_encoding_ids in He; exact He|]. split; [exact N3|]. split; [exact EM|]. split; [exact CA|].
      split; [|split].
      + intros x Hx. destruct (list_eq_dec N.eq_dec s []) as [Z|NZ].
        * destruct (P2 Z) as [Q _]. rewrite Q in Hx. destruct Hx as [Hx|[]]. discriminate.
        * rewrite (P1 NZ) in Hx. apply in_map_iff in Hx. destruct Hx as (y & E & Hy). rewrite Forall_forall in X1. destruct (X1 _ Hy) as (_ & _ & AD).
          destruct (sp_tokens y) as [ts|] eqn:Ey; [|discriminate]. injection E as <-. destruct (AD ts eq_refl) as (i & tk & _ & Ei & C). exists tk. split; [eapply registered_plain; eauto|exact C].
      + intros NZ. rewrite (P1 NZ). exact S3.
      + intros Z. destruct (P2 Z) as [Q1 Q2]. rewrite Q2 in G1. clear -G1 E3 Q1. destruct (pt_splits pt); [|inversion G1]. cbn in E3. injection E3 as <-. auto.
  Qed.
End spm_text.

Lemma wrote_shown parts : swap mark 32 (flat_map wrote parts) = flat_map shown parts.
Proof.
  induction parts as [|[b x] parts IH]; [reflexivity|]. cbn [flat_map]. rewrite swap_app, IH. f_equal.
  unfold wrote, shown. cbn [fst snd]. destruct b; [reflexivity|]. cbn [swap map app]. f_equal. unfold swap, spaced. rewrite map_map. apply map_ext. intros c.
  destruct (N.eqb_spec c 32) as [->|]; reflexivity.
Qed.

Lemma spaced_absent s : ~ In mark s -> spaced s = s.
Proof. apply swap_absent. Qed.

(** No added token in the text: one section. *)
Lemma no_match sp wd av offered s :
  from_offer offered av -> (forall pats p i, av_trie av = Some pats -> In (p, i) pats -> exists t, aget N.eqb i (av_map_r av) = Some t /\ at_content t = p) ->
  none_in offered s -> find_matches sp wd av s (av_trie av) = Ok [(None, (0, blen s))].
Proof.
  intros FO TR NI. unfold find_matches. destruct s as [|c s]; [reflexivity|]. cbn [is_nil]. destruct (av_trie av) as [pats|]; [|reflexivity].
  pose proof (leftmost_find_spec pats (length (c :: s)) (c :: s) 0 (le_n _)) as LL. remember (leftmost_find pats 0 0 (c :: s)) as ms eqn:Em. clear Em.
  inversion LL as [b z NO|b gap p i rest ms' NP Ip _ _ _ E1 E2 E3].
  - cbn [find_loop]. assert (L : 0 < blen (c :: s)) by (cbn [blen]; pose proof (len_utf8_pos c); lia).
    destruct (Nat.eqb_spec 0 (blen (c :: s))); [lia|reflexivity].
  - exfalso. destruct (TR pats p i eq_refl Ip) as (t & Et & C). apply (aget_In N.eqb N.eqb_eq) in Et. apply FO in Et. unfold none_in in NI. rewrite Forall_forall in NI.
    specialize (NI t Et). rewrite C in NI. destruct NI as [->|NI]; [congruence|]. apply NI. exists gap, rest. reflexivity.
Qed.

Lemma one_section s parts : cut_as s [(None, (0, blen s))] parts -> parts = [(false, s)].
Proof.
  intros [_ F]. inversion F as [|? [b x] ? ? [Y1 Y2] F']; subst. inversion F'; subst. cbn [fst snd] in *. rewrite str_get_full in Y1. injection Y1 as <-. subst b. reflexivity.
Qed.

Lemma spelled_within ts w : spelled ts w -> Forall (fun v => (exists u z, w = u ++ v ++ z) \/ exists b, byte_like v b) ts.
Proof.
  assert (W : forall p w ts, Forall (fun v => (exists u z, w = u ++ v ++ z) \/ exists b, byte_like v b) ts ->
     Forall (fun v => (exists u z, p ++ w = u ++ v ++ z) \/ exists b, byte_like v b) ts).
  { intros p w0 ts0 F. eapply Forall_impl; [|exact F]. intros v [(u & z & ->)|B]; [left; exists (p ++ u), z; rewrite <- app_assoc; reflexivity|right; exact B]. }
  induction 1 as [|t ts s P _ IH|c ts s S NM _ IH]; [constructor| |].
  - constructor; [left; exists [], s; reflexivity|]. apply W. exact IH.
  - apply Forall_app. split; [|apply (W [c]); exact IH]. apply Forall_map. pose proof (encode_char_range c S) as R. eapply Forall_impl; [|exact R].
    intros b Hb. right. exists b. apply byte_like_token. exact Hb.
Qed.

Lemma swap_split a b : forall s u v, swap a b s = u ++ v -> exists s1 s2, s = s1 ++ s2 /\ swap a b s1 = u /\ swap a b s2 = v.
Proof.
  intros s u v H. apply map_eq_app in H. destruct H as (l1 & l2 & -> & A & B). exists l1, l2. auto.
Qed.

(** A token without mark of a text without added tokens is written in the text. *)
Lemma written_in s v u z : mark :: swap 32 mark s = u ++ v ++ z -> ~ In mark v -> v <> [] -> occurs v s.
Proof.
  intros E NM NE. destruct u as [|c u]; [destruct v as [|c v]; [congruence|]; injection E as <- _; destruct NM; left; reflexivity|].
  cbn [app] in E. injection E as _ E. destruct (swap_split _ _ _ _ _ E) as (s1 & s2 & -> & _ & E2). destruct (swap_split _ _ _ _ _ E2) as (s3 & s4 & -> & E3 & _).
  exists s1, s4. f_equal. f_equal. subst v. symmetry. clear -NM. induction s3 as [|c s IH]; [reflexivity|]. cbn [swap map] in *. fold (swap 32 mark s) in *.
  assert (N1 : ~ In mark (swap 32 mark s)) by (intros H; apply NM; right; exact H). rewrite IH by exact N1. f_equal.
  destruct (N.eqb_spec c 32) as [->|]; [|reflexivity]. destruct NM. left. reflexivity.
Qed.
