(** C102: the models as Python objects. *)
From Coq Require Import ZArith String.
From Verif Require Import Base StrBytes ListFacts AMap EncodingModel BpeWordModel BpeModel BpeSpec BpeProps WordPieceModel UnigramModel CacheModel CacheSpec CacheProps ModelFilesModel ModelFilesSpec ModelFilesProofs ModelFilesProofs2 ModelFilesProofs3 ModelFilesProps PyModelModel PyModelSpec PyModelProofs.

(** [BPE(...)]: it succeeds exactly when every keyword argument can be read and the
    builder accepts, and then each setting is what its argument says. *)
Theorem C102_bpe {W} (class : W -> dropout_value) of_int read_bpe vocab merges (kw : list (str * arg W)) m cap : NoDup (map fst kw) ->
  (bpe_new class of_int read_bpe vocab merges kw = Ok (m, cap) <->
   exists vo me d unk prefix suffix fuse fallback ignore,
     bpe_source read_bpe vocab merges vo me /\
     kw_says is_number kw "cache_capacity" 10000%N cap /\
     kw_says (none_or_dropout class of_int) kw "dropout" DNone d /\
     kw_says none_or_text kw "unk_token" None unk /\
     kw_says some_text kw "continuing_subword_prefix" None prefix /\
     kw_says some_text kw "end_of_word_suffix" None suffix /\
     kw_says is_flag kw "fuse_unk" false fuse /\
     kw_says is_flag kw "byte_fallback" false fallback /\
     kw_says is_flag kw "ignore_merges" false ignore /\
     bpe_build vo me d unk prefix suffix fuse fallback ignore = Ok m).
Proof.
  intros ND. unfold bpe_new.
  assert (K : forall fi v g r, let c := mkBC fi v g default_capacity DNone None None None false false false in
    ((let! c' := each_kwarg (bpe_kwarg class of_int) c kw in bpe_config_build read_bpe c') = Ok r <-> exists c', bpe_says class of_int kw c c' /\ bpe_config_build read_bpe c' = Ok r)).
  { intros fi v g r c. pose proof (kwargs_say class of_int kw c) as KS. destruct (each_kwarg (bpe_kwarg class of_int) c kw) as [c1|e|]; cbn [bind]; split.
    - intros H. exists c1. split; [apply (KS c1 ND (fun _ => eq_refl) (fun _ => eq_refl)); reflexivity|exact H].
    - intros (c2 & S & B). apply (KS c2 ND (fun _ => eq_refl) (fun _ => eq_refl)) in S. injection S as ->. exact B.
    - discriminate.
    - intros (c2 & S & _). apply (KS c2 ND (fun _ => eq_refl) (fun _ => eq_refl)) in S. discriminate.
    - discriminate.
    - intros (c2 & S & _). apply (KS c2 ND (fun _ => eq_refl) (fun _ => eq_refl)) in S. discriminate. }
  assert (B : forall c' , bpe_config_build read_bpe c' = Ok (m, cap) <-> exists vo me, match c_files c' with Some (f, g) => read_bpe f g = Ok (vo, me) | None => vo = c_vocab c' /\ me = c_merges c' end /\ c_cache c' = cap /\
    bpe_build vo me (c_dropout c') (c_unk c') (c_prefix c') (c_suffix c') (c_fuse c') (c_fallback c') (c_ignore c') = Ok m).
  { intros [fi v g ca d u p s fu fb ig]. unfold bpe_config_build. cbn [c_files c_vocab c_merges c_cache c_dropout c_unk c_prefix c_suffix c_fuse c_fallback c_ignore].
    assert (X : (exists vo me, match fi with Some (f, g') => read_bpe f g' = Ok (vo, me) | None => vo = v /\ me = g end /\ ca = cap /\ bpe_build vo me d u p s fu fb ig = Ok m) <->
      (let! (vo, me) := match fi with Some (f, g') => init (read_bpe f g') | None => Ok (v, g) end in let! m0 := init (bpe_build vo me d u p s fu fb ig) in Ok (m0, ca)) = Ok (m, cap)).
    { destruct fi as [[f g']|].
      - destruct (read_bpe f g') as [[vo me]|e|]; cbn [init bind]; split.
        + intros (? & ? & E & -> & BB). injection E as <- <-. rewrite BB. reflexivity.
        + destruct (bpe_build vo me d u p s fu fb ig) as [m0|e|] eqn:BB; cbn [init bind]; try discriminate. intros E. injection E as -> ->. eauto 6.
        + intros (? & ? & E & _). discriminate.
        + discriminate.
        + intros (? & ? & E & _). discriminate.
        + discriminate.
      - cbn [bind]. split.
        + intros (? & ? & [-> ->] & -> & BB). rewrite BB. reflexivity.
        + destruct (bpe_build v g d u p s fu fb ig) as [m0|e|] eqn:BB; cbn [init bind]; try discriminate. intros E. injection E as -> ->. eauto 8. }
    destruct d; try (symmetry; exact X). split; [discriminate|]. intros (? & ? & _ & _ & BB). discriminate. }
  assert (SRC : forall fi v g, let c := mkBC fi v g default_capacity DNone None None None false false false in
    (forall vo me, bpe_source read_bpe vocab merges vo me <-> match fi with Some (f, g') => read_bpe f g' = Ok (vo, me) | None => vo = v /\ me = g end) ->
    ((exists c', bpe_says class of_int kw c c' /\ bpe_config_build read_bpe c' = Ok (m, cap)) <->
    exists vo me d unk prefix suffix fuse fallback ignore,
     bpe_source read_bpe vocab merges vo me /\
     kw_says is_number kw "cache_capacity" 10000%N cap /\
     kw_says (none_or_dropout class of_int) kw "dropout" DNone d /\
     kw_says none_or_text kw "unk_token" None unk /\
     kw_says some_text kw "continuing_subword_prefix" None prefix /\
     kw_says some_text kw "end_of_word_suffix" None suffix /\
     kw_says is_flag kw "fuse_unk" false fuse /\
     kw_says is_flag kw "byte_fallback" false fallback /\
     kw_says is_flag kw "ignore_merges" false ignore /\
     bpe_build vo me d unk prefix suffix fuse fallback ignore = Ok m)).
  { intros fi v g c HS. split.
    - intros (c' & S & BB). apply B in BB. destruct BB as (vo & me & SR & <- & BB). destruct S as (F & S1 & S2 & S3 & S4 & S5 & S6 & S7 & S8). unfold c in *. cbn [c_files c_vocab c_merges c_cache c_dropout c_unk c_prefix c_suffix c_fuse c_fallback c_ignore] in *.
      exists vo, me, (c_dropout c'), (c_unk c'), (c_prefix c'), (c_suffix c'), (c_fuse c'), (c_fallback c'), (c_ignore c'). split; [|tauto]. apply HS. injection F as F1 F2 F3. rewrite F1, F2, F3 in SR. exact SR.
    - intros (vo & me & d & u & p & s & fu & fb & ig & SR & S1 & S2 & S3 & S4 & S5 & S6 & S7 & S8 & BB). exists (mkBC fi v g cap d u p s fu fb ig). split; [unfold bpe_says, c; cbn [c_files c_vocab c_merges c_cache c_dropout c_unk c_prefix c_suffix c_fuse c_fallback c_ignore]; tauto|].
      apply B. exists vo, me. cbn [c_files c_vocab c_merges c_cache c_dropout c_unk c_prefix c_suffix c_fuse c_fallback c_ignore]. split; [apply HS; exact SR|]. auto. }
  unfold bpe_config0 in *.
  assert (BAD : (forall vo me, ~ bpe_source read_bpe vocab merges vo me) -> forall e,
    ((Err e : res pm_error (bpe * N)) = Ok (m, cap) <-> exists vo me d unk prefix suffix fuse fallback ignore,
     bpe_source read_bpe vocab merges vo me /\
     kw_says is_number kw "cache_capacity" 10000%N cap /\
     kw_says (none_or_dropout class of_int) kw "dropout" DNone d /\
     kw_says none_or_text kw "unk_token" None unk /\
     kw_says some_text kw "continuing_subword_prefix" None prefix /\
     kw_says some_text kw "end_of_word_suffix" None suffix /\
     kw_says is_flag kw "fuse_unk" false fuse /\
     kw_says is_flag kw "byte_fallback" false fallback /\
     kw_says is_flag kw "ignore_merges" false ignore /\
     bpe_build vo me d unk prefix suffix fuse fallback ignore = Ok m)).
  { intros NO e. split; [discriminate|]. intros (vo & me & d & u & p & s & fu & fb & ig & SR & _). destruct (NO _ _ SR). }
  unfold bpe_source in *. destruct vocab as [[v|f]|]; destruct merges as [[g|g]|]; cbn [bind].
  all: try (apply BAD; intros vo me [(H1 & H2 & _)|[(H1 & H2)|(f' & g' & H1 & H2 & _)]]; discriminate).
  - rewrite K. apply SRC. intros vo me. split.
    + intros [(H1 & _)|[(H1 & H2)|(f' & g' & H1 & _)]]; try discriminate. split; congruence.
    + intros [-> ->]. auto.
  - rewrite K. apply SRC. intros vo me. split.
    + intros [(H1 & _)|[(H1 & H2)|(f' & g' & H1 & H2 & H3)]]; try discriminate. injection H1 as <-. injection H2 as <-. exact H3.
    + intros H. right. right. eauto 6.
  - rewrite K. apply SRC. intros vo me. split.
    + intros [(_ & _ & H1 & H2)|[(H1 & H2)|(f' & g' & H1 & H2 & H3)]]; try discriminate. split; assumption.
    + intros [-> ->]. auto.
Qed.

Lemma aget_perm {V} (a b : list (str * V)) k : NoDup (map fst a) -> Permutation a b -> aget str_eqb k b = aget str_eqb k a.
Proof.
  intros D P. assert (D' : NoDup (map fst b)) by (eapply Permutation_NoDup; [apply Permutation_map; exact P|exact D]).
  assert (X : forall l (v : V), NoDup (map fst l) -> In (k, v) l -> aget str_eqb k l = Some v).
  { clear. induction l as [|[k' v'] l IH]; intros v D I; [destruct I|]. cbn [map fst] in D. inversion D as [|? ? NI D']; subst. cbn [aget]. destruct I as [E|I].
    - injection E as -> ->. rewrite str_eqb_refl. reflexivity.
    - destruct (str_eqb k k') eqn:E; [|auto]. apply str_eqb_eq in E. subst k'. apply (in_map fst) in I. cbn in I. tauto. }
  destruct (aget str_eqb k a) as [v|] eqn:E.
  - apply (X _ _ D'). apply (Permutation_in _ P). apply (aget_In str_eqb str_eqb_eq) in E. exact E.
  - destruct (aget str_eqb k b) as [v|] eqn:E'; [|reflexivity]. apply (aget_In str_eqb str_eqb_eq) in E'. apply (Permutation_in _ (Permutation_sym P)) in E'. rewrite (X _ _ D E') in E. discriminate.
Qed.

(** The order of the keyword arguments does not matter. *)
Theorem C102_order {W} (class : W -> dropout_value) of_int read_bpe read_wp vocab merges (kw kw' : list (str * arg W)) r w : NoDup (map fst kw) -> Permutation kw kw' ->
  (bpe_new class of_int read_bpe vocab merges kw = Ok r -> bpe_new class of_int read_bpe vocab merges kw' = Ok r) /\
  (wp_new read_wp vocab kw = Ok w -> wp_new read_wp vocab kw' = Ok w).
Proof.
  intros D P. assert (D' : NoDup (map fst kw')) by (eapply Permutation_NoDup; [apply Permutation_map; exact P|exact D]).
  assert (S : forall T (M : arg W -> T -> Prop) x d v, kw_says M kw x d v -> kw_says M kw' x d v) by (intros T M x d v; unfold kw_says; rewrite (aget_perm kw kw') by assumption; auto).
  split.
  - destruct r as [m cap]. rewrite !C102_bpe by assumption. intros (vo & me & d & u & p & s & fu & fb & ig & H). exists vo, me, d, u, p, s, fu, fb, ig. intuition auto.
  - unfold wp_new. set (c := match vocab with None => _ | Some _ => _ end). destruct (each_kwarg wp_kwarg c kw) as [c1|e|] eqn:E; cbn [bind]; try discriminate. apply wp_kwargs_say in E; [|exact D].
    replace (each_kwarg wp_kwarg c kw') with (Ok c1 : res pm_error wp_config); [auto|]. symmetry. apply wp_kwargs_say; [exact D'|]. unfold wp_says in *. intuition auto.
Qed.

(** The vocabulary and the merges go together. *)
Theorem C102_both {W} (class : W -> dropout_value) of_int read_bpe vocab merges (kw : list (str * arg W)) :
  (forall v g, vocab = Some (VDict v) -> merges = Some (GList g) -> False) -> (forall f g, vocab = Some (VFile f) -> merges = Some (GFile g) -> False) -> (vocab = None -> merges = None -> False) ->
  bpe_new class of_int read_bpe vocab merges kw = Err PValue.
Proof. intros H1 H2 H3. unfold bpe_new. destruct vocab as [[v|f]|], merges as [[g|g]|]; try reflexivity; exfalso; eauto. Qed.

(** [from_file] is [read_file] and the constructor, and the same as giving the names
    of the files to the constructor. *)
Theorem C102_from_file {W} (class : W -> dropout_value) of_int read_bpe read_wp f g (kw : list (str * arg W)) r w : NoDup (map fst kw) ->
  ((bpe_from_file class of_int read_bpe f g kw = Ok r <-> exists vo me, read_bpe f g = Ok (vo, me) /\ bpe_new class of_int read_bpe (Some (VDict vo)) (Some (GList me)) kw = Ok r) /\
   (bpe_from_file class of_int read_bpe f g kw = Ok r <-> bpe_new class of_int read_bpe (Some (VFile f)) (Some (GFile g)) kw = Ok r)) /\
  ((wp_from_file read_wp f kw = Ok w <-> exists vo, read_wp f = Ok vo /\ wp_new read_wp (Some (VDict vo)) kw = Ok w) /\
   (wp_from_file read_wp f kw = Ok w <-> wp_new read_wp (Some (VFile f)) kw = Ok w)).
Proof.
  intros D. split.
  - assert (X : bpe_from_file class of_int read_bpe f g kw = Ok r <-> exists vo me, read_bpe f g = Ok (vo, me) /\ bpe_new class of_int read_bpe (Some (VDict vo)) (Some (GList me)) kw = Ok r).
    { unfold bpe_from_file. destruct (read_bpe f g) as [[vo me]|e|]; cbn [PyModelModel.init bind]; split; try discriminate; try (intros (? & ? & E & _); discriminate).
      - eauto.
      - intros (? & ? & E & H). injection E as <- <-. exact H. }
    split; [exact X|]. rewrite X. destruct r as [m cap]. rewrite C102_bpe by exact D. split.
    + intros (vo & me & R & H). rewrite C102_bpe in H by exact D. destruct H as (vo' & me' & d & u & p & s & fu & fb & ig & SR & H). exists vo', me', d, u, p, s, fu, fb, ig. split; [|exact H].
      unfold bpe_source in *. destruct SR as [(E & _)|[(E1 & E2)|(f' & g' & E & _)]]; try discriminate. injection E1 as <-. injection E2 as <-. right. right. eauto 6.
    + intros (vo & me & d & u & p & s & fu & fb & ig & SR & H). unfold bpe_source in SR. destruct SR as [(E & _)|[(E & _)|(f' & g' & E1 & E2 & R)]]; try discriminate. injection E1 as <-. injection E2 as <-.
      exists vo, me. split; [exact R|]. rewrite C102_bpe by exact D. exists vo, me, d, u, p, s, fu, fb, ig. split; [unfold bpe_source; auto|exact H].
  - assert (X : wp_from_file read_wp f kw = Ok w <-> exists vo, read_wp f = Ok vo /\ wp_new read_wp (Some (VDict vo)) kw = Ok w).
    { unfold wp_from_file. destruct (read_wp f) as [vo|e|]; cbn [PyModelModel.init bind]; split; try discriminate; try (intros (? & E & _); discriminate).
      - eauto.
      - intros (? & E & H). injection E as <-. exact H. }
    split; [exact X|]. rewrite X. unfold wp_new.
    set (c2 := mkWC (Some f) [] (key "[UNK]") (key "##") 100). split.
    + intros (vo & R & H). set (c1 := mkWC None vo (key "[UNK]") (key "##") 100) in H. destruct (each_kwarg wp_kwarg c1 kw) as [c'|e|] eqn:E; cbn [bind] in H; try discriminate. apply wp_kwargs_say in E; [|exact D]. destruct E as (F & S).
      replace (each_kwarg wp_kwarg c2 kw) with (Ok (mkWC (Some f) [] (d_unk c') (d_prefix c') (d_max c')) : res pm_error wp_config); [|symmetry; apply wp_kwargs_say; [exact D|]; split; [reflexivity|exact S]].
      cbn [bind]. unfold wp_config_build in *. cbn [d_file d_vocab d_unk d_prefix d_max]. injection F as F1 F2. rewrite F1, F2 in H. rewrite R. cbn [PyModelModel.init]. exact H.
    + destruct (each_kwarg wp_kwarg c2 kw) as [c'|e|] eqn:E; cbn [bind]; try discriminate. apply wp_kwargs_say in E; [|exact D]. destruct E as (F & S). injection F as F1 F2. unfold wp_config_build at 1. rewrite F1. destruct (read_wp f) as [vo|e|]; cbn [PyModelModel.init bind]; try discriminate.
      intros H. exists vo. split; [reflexivity|]. replace (each_kwarg wp_kwarg (mkWC None vo (key "[UNK]") (key "##") 100) kw) with (Ok (mkWC None vo (d_unk c') (d_prefix c') (d_max c')) : res pm_error wp_config); [exact H|].
      symmetry. apply wp_kwargs_say; [exact D|]. split; [reflexivity|exact S].
Qed.

(** [WordPiece(...)] and [WordLevel(...)]. *)
Theorem C102_wordpiece {W} read_wp vocab (kw : list (str * arg W)) w : NoDup (map fst kw) ->
  (wp_new read_wp vocab kw = Ok w <->
   exists vo n, vocab_source read_wp vocab vo /\ w_vocab w = vo /\
     kw_says is_text kw "unk_token" (key "[UNK]") (w_unk w) /\
     kw_says is_text kw "continuing_subword_prefix" (key "##") (w_prefix w) /\
     kw_says is_number kw "max_input_chars_per_word" 100%N n /\ w_max w = N.to_nat n).
Proof.
  intros D. unfold wp_new. set (c := match vocab with None => _ | Some _ => _ end).
  assert (C : (d_unk c, d_prefix c, d_max c) = (key "[UNK]", key "##", 100%N) /\ forall vo, (vocab_source read_wp vocab vo <-> match d_file c with Some f => read_wp f = Ok vo | None => vo = d_vocab c end)).
  { unfold c, vocab_source. destruct vocab as [[v|f]|]; (split; [reflexivity|]); intros vo; cbn [d_file d_vocab]; split.
    - intros [(E & _)|[E|(f & E & _)]]; try discriminate. congruence.
    - intros ->. auto.
    - intros [(E & _)|[E|(f' & E & R)]]; try discriminate. injection E as <-. exact R.
    - intros R. right. right. eauto.
    - intros [(_ & E)|[E|(f' & E & R)]]; try discriminate. exact E.
    - intros ->. auto. }
  destruct C as (C1 & C2). injection C1 as U P M. clearbody c. split.
  - destruct (each_kwarg wp_kwarg c kw) as [c'|e|] eqn:E; cbn [bind]; try discriminate. apply wp_kwargs_say in E; [|exact D]. destruct E as (F & S1 & S2 & S3). rewrite U in S1. rewrite P in S3. rewrite M in S2. injection F as F1 F2.
    unfold wp_config_build. rewrite F1, F2. intros H. assert (X : exists vo, vocab_source read_wp vocab vo /\ w = mkWP vo (d_unk c') (d_prefix c') (N.to_nat (d_max c'))).
    { destruct (d_file c) as [f|] eqn:EF.
      - destruct (read_wp f) as [vo|e|] eqn:R; cbn [PyModelModel.init bind] in H; try discriminate. injection H as <-. exists vo. split; [apply C2; reflexivity|reflexivity].
      - cbn [bind] in H. injection H as <-. exists (d_vocab c). split; [apply C2; reflexivity|reflexivity]. }
    destruct X as (vo & SR & ->). exists vo, (d_max c'). cbn [w_vocab w_unk w_prefix w_max]. auto 8.
  - intros (vo & n & SR & V & S1 & S3 & S2 & MX). replace (each_kwarg wp_kwarg c kw) with (Ok (mkWC (d_file c) (d_vocab c) (w_unk w) (w_prefix w) n) : res pm_error wp_config).
    + cbn [bind]. unfold wp_config_build. cbn [d_file d_vocab d_unk d_prefix d_max]. apply C2 in SR. rewrite <- MX. destruct (d_file c) as [f|]; [rewrite SR; cbn [PyModelModel.init bind]|subst vo; cbn [bind]; rewrite <- V]; destruct w as [x1 x2 x3 x4]; cbn [w_vocab w_unk w_prefix w_max] in *; congruence.
    + symmetry. apply wp_kwargs_say; [exact D|]. unfold wp_says. cbn [d_file d_vocab d_unk d_prefix d_max]. rewrite U, P, M. auto.
Qed.

Theorem C102_wordlevel read_wl vocab unk w :
  (wl_new read_wl vocab unk = Ok w <-> vocab_source read_wl vocab (l_vocab w) /\ l_unk w = match unk with Some t => t | None => key "<unk>" end) /\
  (forall f, wl_from_file read_wl f unk = Ok w <-> wl_new read_wl (Some (VFile f)) unk = Ok w).
Proof.
  split.
  - unfold wl_new, vocab_source. destruct w as [v u]. cbn [l_vocab l_unk]. destruct vocab as [[vo|f]|]; cbn [bind].
    + split; [intros E; injection E as <- <-; auto|]. intros ([(E & _)|[E|(f & E & _)]] & ->); try discriminate. injection E as ->. reflexivity.
    + destruct (read_wl f) as [vo|e|] eqn:R; cbn [PyModelModel.init bind]; (split; [try discriminate|intros ([(E & _)|[E|(f' & E & R')]] & ->); try discriminate; injection E as <-; try congruence]).
      * intros E. injection E as <- <-. eauto 6.
    + split; [intros E; injection E as <- <-; auto|]. intros ([(_ & ->)|[E|(f & E & _)]] & ->); try discriminate. reflexivity.
  - intros f. unfold wl_from_file, wl_new. destruct (read_wl f); reflexivity.
Qed.

(** [Unigram(...)]: a vocabulary with its settings, or none at all. *)
Theorem C102_unigram {W} (A : arith W) vocab unk fallback alpha nbest o :
  uni_new A vocab unk fallback alpha nbest = Ok o <->
  uo_alpha o = alpha /\ uo_nbest o = nbest /\
  match vocab with
  | Some vo => uni_from A vo unk (match fallback with Some b => b | None => false end) = Ok (uo_model o)
  | None => unk = None /\ uni_from A [(key "<unk>", a_zero A)] (Some 0%N) false = Ok (uo_model o)
  end.
Proof.
  unfold uni_new. destruct vocab as [vo|]; [|destruct unk as [k|]].
  - destruct (uni_from A vo unk _) as [m|e|] eqn:E; cbn [PyModelModel.init bind]; (split; [try discriminate|intros (<- & <- & H); try discriminate]).
    + intros X. injection X as <-. auto.
    + injection H as ->. destruct o. reflexivity.
  - split; [discriminate|intros (_ & _ & H & _); discriminate].
  - destruct (uni_from A [(key "<unk>", a_zero A)] (Some 0%N) false) as [m|e|] eqn:E; cbn [bind]; (split; [try discriminate|intros (<- & <- & _ & H); try discriminate]).
    + intros X. injection X as <-. auto.
    + injection H as ->. destruct o. reflexivity.
Qed.

(** Without a vocabulary, the argument [byte_fallback] is not used. *)
Theorem C102_unigram_fallback_refuted :
  exists o, uni_new z_arith None None (Some true) None None = Ok o /\ u_fallback (uo_model o) = false.
Proof. eexists. split; vm_compute; reflexivity. Qed.

(** The defaults of the documented signature, given explicitly, are errors for four
    of the arguments; [dropout] and [unk_token] may be None. *)
Theorem C102_none_refuted {W} (class : W -> dropout_value) of_int read_bpe :
  bpe_new class of_int read_bpe None None [] = Ok (mkBpe [] [] [] DNone None None None false false false, 10000%N) /\
  bpe_new class of_int read_bpe None None [(key "dropout", ANone); (key "unk_token", ANone)] = Ok (mkBpe [] [] [] DNone None None None false false false, 10000%N) /\
  forall k, In k ["cache_capacity"; "continuing_subword_prefix"; "end_of_word_suffix"; "fuse_unk"]%string -> bpe_new class of_int read_bpe None None [(key k, ANone)] = Err PType.
Proof.
  split; [vm_compute; reflexivity|]. split; [vm_compute; reflexivity|]. intros k [<-|[<-|[<-|[<-|[]]]]]; vm_compute; reflexivity.
Qed.

(** ** Attributes *)
(** After any assignments each attribute has the last value assigned to it, and
    nothing else has changed. *)
Theorem C102_attributes m (w : wordpiece) v {W} (o : @uni_object W) :
  (forall l, fold_left assign_bpe l m = after_assign m l) /\
  (forall l, fold_left assign_wp l w = mkWP (w_vocab w) (newest (fun a => match a with SetWpUnk s => Some s | _ => None end) l (w_unk w))
     (newest (fun a => match a with SetWpPrefix s => Some s | _ => None end) l (w_prefix w)) (newest (fun a => match a with SetWpMax n => Some (N.to_nat n) | _ => None end) l (w_max w))) /\
  (forall l, fold_left assign_wl l v = mkWL (l_vocab v) (newest Some l (l_unk v))) /\
  (forall l, fold_left assign_uni l o = mkUO (uo_model o) (newest (fun a => match a with SetAlpha x => Some x | _ => None end) l (uo_alpha o)) (newest (fun a => match a with SetNbest x => Some x | _ => None end) l (uo_nbest o))).
Proof.
  split; [intros l; apply assign_after|]. split; [|split].
  - intros l. revert w. induction l as [|a l IH]; intros w; [destruct w; reflexivity|]. cbn [fold_left]. rewrite IH. destruct w, a; reflexivity.
  - intros l. revert v. induction l as [|a l IH]; intros v; [destruct v; reflexivity|]. cbn [fold_left]. rewrite IH. destruct v; reflexivity.
  - intros l. revert o. induction l as [|a l IH]; intros o; [destruct o; reflexivity|]. cbn [fold_left]. rewrite IH. destruct o, a; reflexivity.
Qed.

(** Every call returns what the model with its attributes gives, when the cache is
    cleared after the assignments, *)
Theorem C102_calls pop m cap l : cleared false l -> use_new pop (m, cap) l = Some (answers pop m [] l).
Proof.
  intros CL. unfold use_new. cbn [fst snd].
  destruct (step pop world0 (OBuild m (N.to_nat cap))) as [[st o]|] eqn:E; [|cbn [step] in E; destruct (N.to_nat cap); discriminate].
  destruct (step_inv pop [] world0 _ st o (inv0 pop) ltac:(intros ? []) ltac:(intros ? ? ? ? _ []) E) as [H _]. cbn [after] in H.
  assert (AL : exists c, alone (after_assign m []) c st) by (cbn [step] in E; destruct (N.to_nat cap); injection E as <- <-; (eexists; split; [destruct m; reflexivity|reflexivity])).
  destruct AL as (c & AL). exact (uses_answer pop m l st false [] c AL H CL).
Qed.

(** or when there is no cache. *)
Theorem C102_uncached pop m l : use_new pop (m, 0%N) l = Some (answers pop m [] l).
Proof.
  unfold use_new. cbn [fst snd]. change (N.to_nat 0) with 0. cbn [step]. apply uncached_answer. split; [destruct m; reflexivity|reflexivity].
Qed.

(** Without clearing, the words seen before keep their old tokens. *)
Theorem C102_stale_refuted : exists m l outs, use_new pop_min (m, 10%N) l = Some outs /\ outs <> answers pop_min m [] l /\
  l = [UTokenize 0 [97; 122]%N no_draw; UAssign (SetUnk (Some [63%N])); UTokenize 0 [97; 122]%N no_draw].
Proof.
  exists (mkBpe [([97], 0); ([63], 1)]%N [(0, [97]); (1, [63])]%N [] DNone None None None false false false). do 2 eexists. split; [|split; [|reflexivity]].
  - vm_compute. reflexivity.
  - vm_compute. discriminate.
Qed.

(** ** Pickles *)
(** A BPE, constructed and with attributes assigned, comes back the same from its
    pickle, as long as its prefix was not assigned and its dropout is one that the
    constructor accepts. *)
Theorem C102_pickle_bpe {W} (A : arith W) (F : floats W) by_rank class of_int read_bpe vocab merges (kw : list (str * arg W)) m cap l :
  rank_sort by_rank -> floats_ok F -> NoDup (map fst kw) ->
  bpe_new class of_int read_bpe vocab merges kw = Ok (m, cap) -> writable (b_vocab m) ->
  (forall o, ~ In (SetPrefix o) l) -> newest to_dropout l (b_dropout m) <> DOutside ->
  exists j m', get_state F by_rank (MBpe (after_assign m l)) = Ok j /\ set_state A F j = Ok (MBpe m') /\ same_bpe (after_assign m l) m'.
Proof.
  intros RS FO ND E WR NP HD. apply C102_bpe in E; [|exact ND]. destruct E as (vo & me & d & u & p & s & fu & fb & ig & _ & _ & _ & _ & _ & _ & _ & _ & _ & B).
  assert (SV : @savable W A F (MBpe (after_assign m l))).
  { assert (NPX : newest to_prefix l (b_prefix m) = b_prefix m).
    { clear -NP. generalize (b_prefix m). induction l as [|a l IH]; intros x; [reflexivity|]. cbn [newest]. rewrite IH by (intros o I; apply (NP o); right; exact I). destruct a as [| |o| | | |]; try reflexivity. destruct (NP o). left. reflexivity. }
    unfold after_assign. rewrite NPX. clear NPX. revert HD. set (d' := newest to_dropout l (b_dropout m)). intros HD. unfold bpe_build in B.
    assert (X : exists mm, build_merges vo (opt_blen p) (max_blen vo) 0 me [] = Ok mm /\ m = mkBpe vo (reverse_vocab vo) mm d u p s fu fb ig).
    { destruct d; try discriminate; (destruct (build_merges vo (opt_blen p) (max_blen vo) 0 me []) as [mm|e|]; cbn [bind] in B; try discriminate; injection B as <-; eauto). }
    destruct X as (mm & BM & ->). cbn [b_vocab b_vocab_r b_merges b_unk b_prefix b_suffix b_fuse b_fallback b_ignore_merges] in *. exists vo, me, p. split; [|exact WR]. split; [apply WR|]. exists d'. do 5 eexists. unfold bpe_build. clearbody d'. rewrite BM. cbn [bind]. destruct d'; try reflexivity. congruence. }
  destruct (C66_saved A F by_rank _ RS FO SV) as (j & EJ & H). destruct (H j (re_same j)) as (m' & L & _ & SM). destruct m' as [m'|m'|m'|m']; try (destruct SM; fail). exists j, m'. unfold get_state, set_state. rewrite EJ, L. auto.
Qed.

(** The other models. *)
Theorem C102_pickle {W} (A : arith W) (F : floats W) by_rank (m : @model W) : rank_sort by_rank -> floats_ok F -> savable A F m ->
  exists j m', get_state F by_rank m = Ok j /\ set_state A F j = Ok m' /\ same_model m m'.
Proof.
  intros RS FO SV. destruct (C66_saved A F by_rank _ RS FO SV) as (j & EJ & H). destruct (H j (re_same j)) as (m' & L & _ & SM). exists j, m'. unfold get_state, set_state. rewrite EJ, L. auto.
Qed.

(** Assignments to a WordPiece or a WordLevel keep it so. *)
Theorem C102_pickle_assigned {W} (A : arith W) (F : floats W) by_rank (w : wordpiece) (v : wordlevel) lw lv : rank_sort by_rank -> floats_ok F ->
  (writable (w_vocab w) -> (N.of_nat (w_max w) < 2 ^ 64)%N -> Forall (fun a => match a with SetWpMax n => (n < 2 ^ 64)%N | _ => True end) lw ->
   exists j m', get_state F by_rank (MWordPiece (fold_left assign_wp lw w)) = Ok j /\ set_state A F j = Ok m' /\ same_model (MWordPiece (fold_left assign_wp lw w)) m') /\
  (writable (l_vocab v) ->
   exists j m', get_state F by_rank (MWordLevel (fold_left assign_wl lv v)) = Ok j /\ set_state A F j = Ok m' /\ same_model (MWordLevel (fold_left assign_wl lv v)) m').
Proof.
  intros RS FO. split.
  - intros WR MX FA. apply C102_pickle; try assumption. revert w WR MX. induction FA as [|a lw HA FA IH]; intros w WR MX; cbn [fold_left]; [split; assumption|]. apply IH; destruct a; cbn [assign_wp w_vocab w_max]; try assumption. lia.
  - intros WR. apply C102_pickle; try assumption. revert v WR. induction lv as [|a lv IH]; intros v WR; cbn [fold_left]; [exact WR|]. apply IH. exact WR.
Qed.

(** The attributes of sampling of a Unigram are lost. *)
Theorem C102_pickle_sampling_refuted : exists o j o',
  uni_new z_arith (Some [([97%N], (-3)%Z); ([98%N], (-4)%Z)]) (Some 0%N) None (Some 1%Z) (Some 5%N) = Ok o /\
  uni_get_state z_floats sort_rank o = Ok j /\ uni_set_state z_arith z_floats j = Ok o' /\
  uo_model o' = uo_model o /\ (uo_alpha o, uo_nbest o) = (Some 1%Z, Some 5%N) /\ (uo_alpha o', uo_nbest o') = (None, None).
Proof. do 3 eexists. split; [vm_compute; reflexivity|]. split; [vm_compute; reflexivity|]. split; [vm_compute; reflexivity|]. split; [vm_compute; reflexivity|]. split; reflexivity. Qed.

(** The setter takes a dropout that the constructor refuses, and the pickle cannot be
    loaded. *)
Definition out_floats : floats Z := mkFloats (fun _ => true) Z.of_N (fun d => match d with DPositive => 50 | DOutside => 150 | _ => 0 end)%Z (fun w => if Z.eqb w 0 then DZero else if Z.leb w 100 then DPositive else DOutside).
Definition no_files : str -> str -> res file_error (list (str * N) * list (str * str)) := fun _ _ => Err EFile.
Theorem C102_pickle_dropout_refuted : exists m cap j,
  bpe_new (f_class out_floats) (fun z => z * 100)%Z no_files None None [] = Ok (m, cap) /\
  bpe_new (f_class out_floats) (fun z => z * 100)%Z no_files None None [(key "dropout", AFloat 150%Z)] = Err PInit /\
  b_dropout (assign_bpe m (SetDropout (f_class out_floats 150%Z))) = DOutside /\
  get_state out_floats sort_rank (MBpe (assign_bpe m (SetDropout (f_class out_floats 150%Z)))) = Ok j /\ set_state z_arith out_floats j = Err PInit.
Proof. do 3 eexists. split; [vm_compute; reflexivity|]. split; [vm_compute; reflexivity|]. split; [vm_compute; reflexivity|]. split; [vm_compute; reflexivity|]. vm_compute. reflexivity. Qed.

(** Assigning the prefix does not change the merges: they are built again, with the
    new prefix, from the pickle.  The unpickling panics, or gives another model. *)
Definition clash_vocab : list (str * N) := [([97], 0); ([35; 98], 1); ([97; 98], 2); ([97; 35; 98], 3)]%N.
Theorem C102_pickle_prefix_refuted :
  (exists m cap j, bpe_new (f_class z_floats) (fun z => z) no_files (Some (VDict [([97], 0); ([98], 1); ([97; 98], 2)]%N)) (Some (GList [([97], [98])]%N)) [] = Ok (m, cap) /\
     get_state z_floats sort_rank (MBpe (assign_bpe m (SetPrefix (Some [35; 35]%N)))) = Ok j /\ set_state z_arith z_floats j = Panic) /\
  (exists m cap j m', bpe_new (f_class z_floats) (fun z => z) no_files (Some (VDict clash_vocab)) (Some (GList [([97], [35; 98])]%N)) [(key "continuing_subword_prefix", AStr [35%N])] = Ok (m, cap) /\
     get_state z_floats sort_rank (MBpe (assign_bpe m (SetPrefix None))) = Ok j /\ set_state z_arith z_floats j = Ok (MBpe m') /\
     b_lookup (assign_bpe m (SetPrefix None)) 0 1 = Some (0, 2)%N /\ b_lookup m' 0 1 = Some (0, 3)%N).
Proof.
  split.
  - do 3 eexists. split; [vm_compute; reflexivity|]. split; [vm_compute; reflexivity|]. vm_compute. reflexivity.
  - do 4 eexists. split; [vm_compute; reflexivity|]. split; [vm_compute; reflexivity|]. split; [vm_compute; reflexivity|]. split; [vm_compute; reflexivity|]. vm_compute. reflexivity.
Qed.

(** Non-vacuity. *)
Example C102_example :
  let kw := [(key "unk_token", AStr [63%N]); (key "dropout", AFloat 50%Z); (key "end_of_word_suffix", AStr [36%N]); (key "fuse_unk", ABool true); (key "other", AObject)] in
  let vocab := [([97], 0); ([98], 1); ([97; 98], 2); ([63], 3)]%N in
  NoDup (map fst kw) /\
  (exists m, bpe_new (f_class z_floats) (fun z => z) no_files (Some (VDict vocab)) (Some (GList [([97], [98])]%N)) kw = Ok (m, 10000%N) /\
     writable (b_vocab m) /\ b_unk m = Some [63%N] /\ b_dropout m = DPositive /\ b_suffix m = Some [36%N] /\ b_fuse m = true /\ newest to_dropout [SetUnk None; SetDropout DZero] (b_dropout m) <> DOutside) /\
  (forall s, cleared false [UTokenize 0 s no_draw; UAssign (SetUnk None); UClear; UTokenize 1 s no_draw; UAssign (SetDropout DZero); UTokenize 0 s no_draw]) /\
  rank_sort sort_rank /\ floats_ok z_floats /\
  (exists w, wp_new (W := Z) (fun _ => Err EFile) None [(key "max_input_chars_per_word", AInt 7%Z)] = Ok w /\ w_max w = 7).
Proof.
  cbv zeta. split; [apply (nodup_check str_eqb); [apply str_eqb_eq|vm_compute; reflexivity]|]. split.
  { eexists. split; [vm_compute; reflexivity|]. split; [|repeat split; vm_compute; try reflexivity; discriminate]. cbn [b_vocab].
    split; [repeat constructor; cbn; intuition discriminate|]. split; [repeat constructor; cbn; intuition discriminate|]. intros t i I. cbn in I. repeat (destruct I as [E|I]; [injection E as <- <-; lia|]). destruct I. }
  split; [intros s; cbn; tauto|]. split; [apply sort_rank_ok|]. split; [intros d [-> | ->]; split; reflexivity|].
  eexists. split; [vm_compute; reflexivity|]. vm_compute. reflexivity.
Qed.
