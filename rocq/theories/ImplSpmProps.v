(** C99: the ready-made SentencePiece tokenizers of the Python package. *)
From Coq Require Import String.
From Verif Require Import Base ListFacts StrBytes Utf8 AMap EncodingModel EncodingSpec NormModel BpeWordModel BpeWordSpec BpeModel BpeSpec BpeProofs BpeProps BpeTrainModel BpeTrainSpec BpeTrainProps TrainersModel
  PatternModel PatternSpec NormalizersModel NormalizersSpec DecodersModel DecodersSpec AddedModel AddedSpec AddedProofs AddedProofs2 AddedProps
  UnigramModel UnigramSpec UnigramProps TrainersSpec TrainersProps PreTokModel PreTokenizersModel PreTokenizersSpec PreTokenizersProps TokenizerModel RoundTripModel RoundTripSpec RoundTripProofs SpmTripSpec MetaTripSpec MetaTripProofs
  WordTripModel WordTripSpec
  ModelFilesModel ComponentFilesModel TokenizerFilesModel TokenizerFilesSpec TokenizerTrainModel TokenizerTrainSpec TokenizerTrainProofs TokenizerTrainProps TrainSaveModel TrainSaveProps
  PySettingsModel ImplModel ImplSpec ImplProofs ImplProps ImplBertModel ImplBertSpec ImplBertProofs ImplBertProps ImplSpmModel ImplSpmSpec ImplSpmProofs.
From Verif Require ModelFilesProps ComponentFilesProps NormalizersProps BpeTrainProofs5 UnigramTrainModel UnigramTrainSpec UnigramTrainProps.

Section spm.
  Context {W : Type} (P : platform W).

  Lemma sub_verbatim cs (u : str) ts : incl cs [u] -> Forall verbatim ts -> Forall verbatim (map special_text cs ++ ts).
  Proof. intros IC V. apply Forall_app. split; [|exact V]. apply Forall_map. apply Forall_forall. intros x _. repeat split. Qed.
  Lemma sub_told cs (u : str) ts : incl cs [u] -> incl (map special_text cs ++ ts) (special_text u :: ts).
  Proof.
    intros IC t IT. apply in_app_or in IT. destruct IT as [IT|IT]; [left|right; exact IT]. apply in_map_iff in IT. destruct IT as (x & <- & IX). apply IC in IX. destruct IX as [<-|[]]. reflexivity.
  Qed.
  Lemma uni_usable : finds_runs P -> NormalizersSpec.usable (uni_normal P).
  Proof. intros F. cbn [uni_normal NormalizersSpec.usable]. repeat (split; [exact Logic.I|]). split; [|exact Logic.I]. split; [repeat constructor|exact F]. Qed.
  Lemma file_usable chart : finds_runs P -> chart_ok P chart -> NormalizersSpec.usable (file_normal P chart).
  Proof. intros F C. unfold file_normal. destruct chart as [c|]; cbn [app NormalizersSpec.usable]; [split; [exact C|]|]; (split; [|exact Logic.I]); (split; [repeat constructor|exact F]). Qed.

  (** ** BPE *)
  (** What the constructor accepts: a text as unknown token, a truth value for [fuse_unk],
      one character to mark spaces, a dropout that is a probability, and merges of
      tokens of the vocabulary. *)
  Theorem C99_accepts vocab merges o : sound_vocab vocab -> (forall l, NoDup (map fst l) -> pf_build P l = true) ->
    ((exists g, spm_bpe_new P (Some vocab) (Some merges) o = Ok g) <->
     (exists unk, so_unk o = ArgText unk) /\ (exists fuse, so_fuse o = Some fuse) /\ (exists rep, so_rep o = [rep]) /\ so_dropout o <> DOutside /\ acceptable vocab None merges).
  Proof.
    intros SV HB. split.
    - intros (g & H). destruct (spm_bpe_given P _ _ _ _ SV H) as (m & rep & cs & EM & ER & _). unfold spm_bpe_model in EM. destruct (so_unk o) as [u|]; [|discriminate]. destruct (so_fuse o) as [f|]; [|discriminate].
      split; [eauto|]. split; [eauto|]. split; [eauto|]. destruct (bpe_build _ _ _ _ _ _ _ _ _) as [b| |] eqn:EB in EM; try discriminate. eapply build_accepts. exists b. exact EB.
    - intros ((u & EU) & (f & EF) & (rep & ER) & DO & AC). eapply spm_bpe_accepts; eassumption.
  Qed.

  (** Whatever tokens are added, a text all of whose characters are tokens is encoded and
      comes back as NFKC leaves it, without one space in front. *)
  Theorem C99_bpe vocab merges o g rep ts g' s ot add skip : sound_vocab vocab -> spm_bpe_new P (Some vocab) (Some merges) o = Ok g -> extended P g ts g' ->
    ordinary P -> so_rep o = [rep] -> is_scalar rep = true -> rep <> 32%N -> Forall verbatim ts ->
    let n := normal_text (pf_norm P) bpe_normal s in
    text s -> none_in (special_text (str_of (so_unk o)) :: ts) s -> ~ In rep n ->
    (forall c, In c (seen rep (so_prefix o) n) -> In [c] (map fst vocab)) ->
    (skip = true -> Forall (unwritten rep n) (special_text (str_of (so_unk o)) :: ts)) ->
    exists e, encode (runtime P g') ot (Single (Raw s)) add = Ok e /\ decode_ids P g' skip (ids e) = Ok (shown_text (so_prefix o) n).
  Proof.
    intros SV H X (HN & HT & HH) ER RS R32 VB n TX NI NR KC SK. destruct (spm_bpe_given P _ _ _ _ SV H) as (m & rep' & cs & EM & ER' & IC & _ & C). assert (rep' = rep) by congruence. subst rep'. pose proof (spm_extended P _ _ _ _ _ _ _ _ _ C X) as C'.
    destruct (spm_model_given _ _ _ _ SV EM) as (BT & EV & SB & MO & DN). pose proof (sub_told cs _ ts IC) as IL.
    apply (spm_shows P g' CnNFKC rep (so_prefix o) (MBpe m) _ _ s ot add skip HN HT Logic.I RS R32 C' (sub_verbatim cs _ ts IC VB) MO DN TX); auto.
    - eapply sub_none; eassumption.
    - intros w _ OW. apply (bpe_spells_any _ vocab merges); auto; [exact (proj1 (proj2 SV))|]. intros c Ic. apply KC. eapply occurs_char; eassumption.
    - intros E. specialize (SK E). rewrite Forall_forall in *. auto.
  Qed.

  (** A vocabulary without merges, or merges without a vocabulary, are not used. *)
  Theorem C99_both_or_none vocab merges o : spm_bpe_new P (Some vocab) None o = spm_bpe_new P None None o /\ spm_bpe_new P None (Some merges) o = spm_bpe_new P None None o.
  Proof. split; reflexivity. Qed.

  (** The signature allows an [AddedToken] as unknown token, and no value for [fuse_unk]:
      neither is accepted. *)
  Theorem C99_unk_token_refuted vocab merges o t : so_unk o = ArgToken t -> spm_bpe_new P vocab merges o = Err tt.
  Proof. intros E. unfold spm_bpe_new, spm_bpe_model. rewrite E. reflexivity. Qed.
  Theorem C99_fuse_refuted vocab merges o : so_fuse o = None -> spm_bpe_new P vocab merges o = Err tt.
  Proof. intros E. unfold spm_bpe_new, spm_bpe_model. rewrite E. destruct (so_unk o); reflexivity. Qed.

  Context (by_count : list (char * N) -> list (char * N)) (pop : list tmerge -> option (tmerge * list tmerge)).

  (** Trained from nothing on any texts, then tokens are added: texts in the alphabet
      of the new vocabulary come back; the kept characters of the training texts are in it. *)
  Theorem C99_bpe_trained vocab merges o g rep vocab_size min_frequency limit initial heap items heap' special texts g1 ts g' : count_sort by_count -> train_heap pop ->
    vocab = None \/ merges = None -> spm_bpe_new P vocab merges o = Ok g -> collect true heap items = (heap', Ok special) ->
    spm_bpe_train P by_count pop vocab_size min_frequency limit initial heap items texts g = Ok g1 -> extended P g1 ts g' ->
    Forall text (leaves texts) -> (forall wc, counted (training_words (runtime P g)) (leaves texts) wc -> small_corpus wc) ->
    ordinary P -> so_rep o = [rep] -> is_scalar rep = true -> rep <> 32%N -> Forall verbatim (special ++ ts) ->
    exists m wc al, g_model g' = MBpe m /\ counted (training_words (runtime P g)) (leaves texts) wc /\
      kept_alphabet (mkTrainer min_frequency vocab_size (map at_content special) (Some limit) initial None None None) wc al /\
      (forall c, In c al -> In [c] (map fst (b_vocab m))) /\ (forall t, In t special -> In (at_content t) (map fst (b_vocab m))) /\
      forall s ot add skip, let n := normal_text (pf_norm P) bpe_normal s in
        text s -> none_in (special ++ ts) s -> ~ In rep n -> (forall c, In c (seen rep (so_prefix o) n) -> In [c] (map fst (b_vocab m))) ->
        (skip = true -> Forall (unwritten rep n) (special ++ ts)) ->
        exists e, encode (runtime P g') ot (Single (Raw s)) add = Ok e /\ decode_ids P g' skip (ids e) = Ok (shown_text (so_prefix o) n).
  Proof.
    intros HC HQ VN H CL TR X TX SC (HN & HT & HH) ER RS R32 VB. destruct (bpe_scratch P _ _ _ _ VN H) as (m0 & rep' & ER' & C & AV & DO). assert (rep' = rep) by congruence. subst rep'.
    unfold spm_bpe_train in TR. rewrite CL in TR. destruct (trained_spm P by_count pop _ _ _ _ _ _ _ _ _ C AV HN HT Logic.I RS TX TR) as (wc & CO & L & C1).
    cbn [mt_learn any_teacher] in L. apply bind_ok in L. destruct L as ([m sp] & L & E). assert (EM : g_model g1 = MBpe m) by congruence. clear E. rewrite EM in C1.
    destruct (trained_bpe by_count pop (spm_bpe_trainer vocab_size min_frequency limit initial special) _ _ _ _ HC HQ (SC wc CO) DO eq_refl eq_refl L) as (ms & al & BT & SB & ND & MO & DN & KA & KC & KS). pose proof (spm_extended P _ _ _ _ _ _ _ _ _ C1 X) as C'.
    exists m, wc, al. split; [apply (sg_model _ _ _ _ _ _ _ _ C')|]. split; [exact CO|]. split; [exact KA|]. split; [exact KC|]. split; [intros t It; apply KS; apply in_map; exact It|].
    intros s ot add skip n Hs NI NR KT SK. apply (spm_shows P g' CnNFKC rep (so_prefix o) (MBpe m) _ _ s ot add skip HN HT Logic.I RS R32 C' VB MO DN Hs NI NR); [|exact SK].
    intros w _ OW. apply (bpe_spells_any _ (b_vocab m) ms); auto. intros c Ic. apply KT. eapply occurs_char; eassumption.
  Qed.

  (** ** Unigram *)
  (** What the constructor accepts: one character to mark spaces. *)
  Theorem C99_unigram_accepts vocab rep prefix : NoDup (map fst vocab) -> Forall (fun e => text (fst e)) vocab -> (forall l, NoDup (map fst l) -> pf_build P l = true) ->
    en_regex (pf_engines P) (PaRegex (key " {2,}")) <> None -> ((exists g, spm_uni_new P (Some vocab) rep prefix = Ok g) <-> exists c, rep = [c]).
  Proof.
    intros ND TV HB RX. split.
    - intros (g & H). destruct (spm_uni_given P _ _ _ _ H) as (m & c & _ & E & _). eauto.
    - intros (c & ->). unfold spm_uni_new, unigram_new, squeezable. destruct (uni_from (pf_arith P) vocab None false) as [m| |] eqn:EM.
      + cbn [boxed bind]. unfold squeezable, two_spaces. destruct (en_regex (pf_engines P) (PaRegex (key " {2,}"))); [|congruence]. cbn [bind]. destruct (uni_from_keeps _ _ _ _ _ EM) as (EV & _). rewrite <- EV in ND. destruct (uni_model_ok _ _ (uni_made _ _ _ _ _ EM TV) ND) as [MO DN].
        unfold set_norm. destruct (normal_total P (MUnigram m) MO DN HB _ [] (CnSequence [CnNmt; CnNFKC; squeeze]) (told_new P _)) as (g' & ->). cbn [bind meta_parts]. eauto.
      + exfalso. unfold uni_from in EM. destruct (from_loop _ _ _ _ _ _) as [[? ?] ?]; discriminate.
      + exfalso. unfold uni_from in EM. destruct (from_loop _ _ _ _ _ _) as [[? ?] ?]; discriminate.
  Qed.

  (** With a given vocabulary. *)
  Theorem C99_unigram ok vocab rep prefix g ts g' s ot add skip : spm_uni_new P (Some vocab) [rep] prefix = Ok g -> extended P g ts g' ->
    NoDup (map fst vocab) -> Forall (fun e => text (fst e)) vocab -> (forall m, g_model g = MUnigram m -> scores_ok (pf_arith P) ok m) ->
    ordinary P -> finds_runs P -> is_scalar rep = true -> rep <> 32%N -> Forall verbatim ts ->
    let n := normal_text (pf_norm P) (uni_normal P) s in
    text s -> none_in ts s -> ~ In rep n -> (forall c, In c (seen rep prefix n) -> In [c] (map fst vocab)) -> (skip = true -> Forall (unwritten rep n) ts) ->
    exists e, encode (runtime P g') ot (Single (Raw s)) add = Ok e /\ decode_ids P g' skip (ids e) = Ok (shown_text prefix n).
  Proof.
    intros H X ND TV SO (HN & HT & _) FR RS R32 VB n TX NI NR KC SK. destruct (spm_uni_given P _ _ _ _ H) as (m & c & EM & EC & C). injection EC as <-. pose proof (spm_extended P _ _ _ _ _ _ _ _ _ C X) as C'.
    destruct (uni_from_keeps _ _ _ _ _ EM) as (EV & EU & _). pose proof (uni_made _ _ _ _ _ EM TV) as MD. rewrite <- EV in ND. destruct (uni_model_ok _ _ MD ND) as [MO DN].
    apply (spm_shows P g' (CnSequence [CnNmt; CnNFKC; squeeze]) rep prefix (MUnigram m) _ _ s ot add skip HN HT (uni_usable FR) RS R32 C' VB MO DN TX NI NR); [|exact SK].
    intros w _ OW. apply (uni_spells_part P ok m (seen rep prefix n)); auto; [apply SO; apply C|apply seen_text; [exact RS|apply normal_is_text; auto; apply uni_usable; exact FR]|rewrite EV; exact KC|intros k u E; rewrite EU in E; discriminate].
  Qed.

  (** From a SentencePiece file, which must be of a Unigram model; the unknown token is
      not written in the text. *)
  Theorem C99_file ok f g ts g' s ot add skip : from_spm P f = Ok g -> extended P g ts g' ->
    NoDup (map fst (sf_pieces f)) -> Forall (fun e => text (fst e)) (sf_pieces f) -> (forall m, g_model g = MUnigram m -> scores_ok (pf_arith P) ok m) ->
    ordinary P -> finds_runs P -> chart_ok P (sf_chart f) -> Forall verbatim ts ->
    let n := normal_text (pf_norm P) (file_normal P (sf_chart f)) s in
    text s -> none_in ts s -> ~ In 9601%N n -> (forall c, In c (seen 9601 true n) -> In [c] (map fst (sf_pieces f))) ->
    (forall u w, nth_error (sf_pieces f) (N.to_nat (sf_unk f)) = Some (u, w) -> ~ occurs u (seen 9601 true n)) -> (skip = true -> Forall (unwritten 9601 n) ts) ->
    sf_type f = 1%N /\ exists e, encode (runtime P g') ot (Single (Raw s)) add = Ok e /\ decode_ids P g' skip (ids e) = Ok (drop_one_space n).
  Proof.
    intros H X ND TV SO (HN & HT & _) FR CH VB n TX NI NR KC NU SK. destruct (from_spm_given P _ _ H) as (m & TY & EM & C). pose proof (spm_extended P _ _ _ _ _ _ _ _ _ C X) as C'. split; [exact TY|].
    assert (EN : norm_of (pf_engines P) (CnSequence (match sf_chart f with Some c => [CnPrecompiled c] | None => [] end ++ [squeeze])) = file_normal P (sf_chart f)) by (unfold file_normal; destruct (sf_chart f); reflexivity).
    destruct (uni_from_keeps _ _ _ _ _ EM) as (EV & EU & _). pose proof (uni_made _ _ _ _ _ EM TV) as MD. rewrite <- EV in ND. destruct (uni_model_ok _ _ MD ND) as [MO DN]. pose proof (file_usable _ FR CH) as US.
    change (drop_one_space n) with (shown_text true n). unfold n in *. rewrite <- EN in *. apply (spm_shows P g' (CnSequence (match sf_chart f with Some c => [CnPrecompiled c] | None => [] end ++ [squeeze])) 9601%N true (MUnigram m) _ _ s ot add skip HN HT US eq_refl ltac:(discriminate) C' VB MO DN TX NI NR); [|exact SK].
    intros w _ OW. eapply (uni_spells_part P ok m); [exact MD|apply SO; apply C| | |intros k u E1 E2|exact OW].
    - apply seen_text; [reflexivity|apply normal_is_text; auto].
    - rewrite EV. exact KC.
    - rewrite EU in E1. injection E1 as <-. unfold uni_id_to_token, u_item in E2. rewrite EV in E2. destruct (nth_error (sf_pieces f) (N.to_nat (sf_unk f))) as [[u' w']|] eqn:E3; [|discriminate]. injection E2 as <-. exact (NU u' w' eq_refl).
  Qed.

  (** Only Unigram models are read. *)
  Theorem C99_file_type f : sf_type f <> 1%N -> from_spm P f = Err tt.
  Proof. intros T. unfold from_spm. destruct (N.eqb_spec (sf_type f) 1); [congruence|reflexivity]. Qed.

  (** Trained on any texts (the numeric parts are those of UnigramTrainModel): a text comes
      back if its characters are in the initial alphabet or in a training text. *)
  Context (T : UnigramTrainModel.tarith W) (missing : W -> nat -> W) (nan : W) (enough : W -> bool) (rescore : W -> W -> W) (arrange : list str -> list str)
    (suffix : str -> list (str * N)) (max_piece seed_size threads : nat) (plan : nat -> UnigramTrainModel.rtree)
    (fuel : nat) (upop : list (UnigramModel.hypothesis W) -> option (UnigramModel.hypothesis W * list (UnigramModel.hypothesis W))) (rounds : nat).
  Definition learned : uni_trainer -> list (str * N) -> res ut_error (unigram W * list str) :=
    UnigramTrainModel.uni_do_train (pf_arith P) T missing nan enough rescore arrange suffix max_piece seed_size threads plan fuel upop rounds.

  Theorem C99_unigram_trained ok vocab rep prefix g vocab_size initial unk heap items heap' special texts g1 ts g' : any_order arrange -> UnigramTrainSpec.lists_parts suffix ->
    spm_uni_new P vocab [rep] prefix = Ok g -> collect true heap (match items with Some l => l | None => [] end) = (heap', Ok special) ->
    spm_uni_train P by_count pop learned vocab_size initial unk heap items texts g = Ok g1 -> extended P g1 ts g' ->
    ordinary P -> finds_runs P -> is_scalar rep = true -> rep <> 32%N -> Forall verbatim (special ++ ts) ->
    let normal s := normal_text (pf_norm P) (uni_normal P) s in
    let own := map at_content special ++ match unk with Some u => [u] | None => [] end in
    Forall text (leaves texts) -> Forall text own -> text initial -> NoDup (map at_content special) ->
    Forall (own_token (map (fun s => seen rep prefix (normal s)) (leaves texts)) initial) own ->
    (forall m, g_model g1 = MUnigram m -> scores_ok (pf_arith P) ok m) ->
    exists m, g_model g' = MUnigram m /\ (forall x, In x own -> In x (map fst (u_vocab m))) /\
      forall s ot add skip, text s -> none_in (special ++ ts) s -> ~ In rep (normal s) ->
        (forall c, In c (seen rep prefix (normal s)) -> In c initial \/ exists s0, In s0 (leaves texts) /\ In c (seen rep prefix (normal s0))) ->
        (forall u, unk = Some u -> ~ occurs u (seen rep prefix (normal s))) -> (skip = true -> Forall (unwritten rep (normal s)) (special ++ ts)) ->
        exists e, encode (runtime P g') ot (Single (Raw s)) add = Ok e /\ decode_ids P g' skip (ids e) = Ok (shown_text prefix (normal s)).
  Proof.
    intros AO LP H CL TR X (HN & HT & _) FR RS R32 VB normal own TX TO TI DS OW SO. destruct (uni_scratch P _ _ _ _ H) as (m0 & c0 & EC & C & AV). injection EC as <-. pose proof (uni_usable FR) as US.
    unfold spm_uni_train in TR. rewrite CL in TR. destruct (trained_spm P by_count pop _ (CnSequence [CnNmt; CnNFKC; squeeze]) _ _ _ _ _ _ _ C AV HN HT US RS TX TR) as (wc & CO & L & C1).
    destruct (counted_words P _ (CnSequence [CnNmt; CnNFKC; squeeze]) _ _ _ _ _ C AV HN HT US RS TX CO) as [W1 W2].
    cbn [mt_learn any_teacher] in L. apply bind_ok in L. destruct L as (m & L & E). assert (EM : g_model g1 = MUnigram m) by congruence. clear E. rewrite EM in C1. specialize (SO m EM).
    unfold learn_with in L. destruct (learned _ wc) as [[m' sp]| |] eqn:EL in L; try discriminate. injection L as ->. unfold learned in EL.
    set (tr := spm_uni_trainer vocab_size initial unk special) in *.
    destruct (UnigramTrainProps.C75_learns _ _ _ _ _ _ _ _ _ _ _ _ _ _ _ _ _ _ _ AO LP EL) as (front & pieces & ESP & EV & UF & DP & CH & PI).
    pose proof (C59_unigram _ _ _ _ _ _ _ _ _ _ _ _ _ _ _ AO (UnigramTrainProps.prune_drops _ _ _ _ _ _ tr wc) EL) as (_ & _ & _ & _ & _ & _ & _ & _ & UK).
    destruct (uni_run _ _ _ _ _ _ _ _ _ _ _ _ _ _ _ AO (UnigramTrainProps.prune_drops _ _ _ _ _ _ tr wc) EL) as (_ & _ & _ & _ & _ & _ & _ & _ & _ & _ & _ & _ & (fb & UFR) & _).
    change (ut_special tr) with (map at_content special) in *. change (ut_unk tr) with unk in *. change (ut_initial tr) with initial in *.
    assert (OF : forall x, In x front -> unk = Some x /\ ~ In x (map at_content special)).
    { intros x Ix. unfold unk_in_front in UF. destruct unk as [u|]; [|rewrite UF in Ix; destruct Ix]. destruct (in_dec (list_eq_dec N.eq_dec) u (map at_content special)) as [Y|Y]; [rewrite (proj1 UF Y) in Ix; destruct Ix|rewrite (proj2 UF Y) in Ix; destruct Ix as [<-|[]]; auto]. }
    assert (OWN : forall x, In x (front ++ map at_content special) -> In x own).
    { intros x Ix. apply in_app_or in Ix. destruct Ix as [Ix|Ix]; [|apply in_or_app; left; exact Ix]. destruct (OF x Ix) as [-> _]. apply in_or_app. right. left. reflexivity. }
    assert (NP : forall x, In x own -> ~ In x pieces).
    { intros x Ix IP. rewrite Forall_forall in OW. destruct (OW x Ix) as [O1 O2]. destruct (PI x IP) as [(c & -> & [HI|(w & k & IW & Ic)])|(_ & _ & w & k & IW & INS)].
      - exact (O2 c HI eq_refl).
      - destruct (W1 w k IW) as (s & IS & OS). apply (O1 _ (in_map _ _ _ IS)). eapply occurs_trans; [|exact OS]. apply List.in_split in Ic. destruct Ic as (a & b & ->). exists a, b. reflexivity.
      - destruct (W1 w k IW) as (s & IS & OS). apply (O1 _ (in_map _ _ _ IS)). eapply occurs_trans; [exact INS|exact OS]. }
    assert (ND : NoDup (map fst (u_vocab m))).
    { rewrite EV, app_assoc. apply BpeTrainProofs5.NoDup_app_intro; [|exact DP|intros x Ix; apply NP; apply OWN; exact Ix]. apply BpeTrainProofs5.NoDup_app_intro; [|exact DS|intros x Ix; apply OF; exact Ix].
      unfold unk_in_front in UF. destruct unk as [u|]; [|rewrite UF; constructor]. destruct (in_dec (list_eq_dec N.eq_dec) u (map at_content special)) as [Y|Y]; [rewrite (proj1 UF Y); constructor|rewrite (proj2 UF Y); constructor; [intros []|constructor]]. }
    assert (TS : forall s, In s (leaves texts) -> text (seen rep prefix (normal s))).
    { intros s IS. apply seen_text; [exact RS|]. apply normal_is_text; auto. rewrite Forall_forall in TX. auto. }
    assert (TV : Forall (fun e => text (fst e)) (u_vocab m)).
    { apply Forall_forall. intros e Ie. apply (in_map fst) in Ie. rewrite EV, app_assoc in Ie. apply in_app_or in Ie. destruct Ie as [Ie|Ie]; [apply OWN in Ie; rewrite Forall_forall in TO; auto|].
      destruct (PI _ Ie) as [(c & -> & [HI|(w & k & IW & Ic)])|(_ & _ & w & k & IW & INS)].
      - constructor; [|constructor]. unfold text in TI. rewrite Forall_forall in TI. exact (TI c HI).
      - destruct (W1 w k IW) as (s & IS & OS). pose proof (occurs_text _ _ (TS s IS) OS) as TWD. unfold text in TWD. rewrite Forall_forall in TWD. constructor; [exact (TWD c Ic)|constructor].
      - destruct (W1 w k IW) as (s & IS & OS). exact (occurs_text _ _ (occurs_text _ _ (TS s IS) OS) INS). }
    pose proof (uni_made _ _ _ _ _ UFR TV) as MD. destruct (uni_model_ok _ _ MD ND) as [MO DN]. pose proof (spm_extended P _ _ _ _ _ _ _ _ _ C1 X) as C'.
    exists m. split; [apply (sg_model _ _ _ _ _ _ _ _ C')|]. split.
    { intros x Ix. unfold own in Ix. rewrite EV, app_assoc. apply in_or_app. left. apply in_app_or in Ix. destruct Ix as [Ix|Ix]; [apply in_or_app; right; exact Ix|].
      unfold unk_in_front in UF. destruct unk as [u|]; [|destruct Ix]. destruct Ix as [<-|[]]. apply in_or_app. destruct (in_dec (list_eq_dec N.eq_dec) u (map at_content special)) as [Y|Y]; [right; exact Y|left; rewrite (proj2 UF Y); left; reflexivity]. }
    intros s ot add skip Hs NI NR KC NU SK. apply (spm_shows P g' (CnSequence [CnNmt; CnNFKC; squeeze]) rep prefix (MUnigram m) _ _ s ot add skip HN HT US RS R32 C' VB MO DN Hs NI NR); [|exact SK].
    intros w _ OC. apply (uni_spells_part P ok m (seen rep prefix (normal s))); auto.
    - apply seen_text; [exact RS|apply normal_is_text; auto].
    - intros c Ic. rewrite EV. apply in_or_app. right. apply in_or_app. right. apply CH. destruct (KC c Ic) as [HI|(s0 & IS & I0)]; [left; exact HI|right]. exact (W2 s0 c IS I0).
    - intros k u E1 E2. destruct unk as [u'|]; [|congruence]. destruct UK as (i & U1 & U2). rewrite E1 in U1. injection U1 as <-. rewrite E2 in U2. injection U2 as ->. exact (NU u' eq_refl).
  Qed.
End spm.

(** ** Examples and findings *)
(** A search for " {2,}": runs of two or more spaces. *)
Fixpoint spm_runs (at_ : nat) (from : option nat) (s : str) : list (nat * nat) :=
  let closed := match from with Some a => if 2 <=? at_ - a then [(a, at_)] else [] | None => [] end in
  match s with
  | [] => closed
  | c :: r => if N.eqb c 32 then spm_runs (at_ + 1) (match from with Some a => Some a | None => Some at_ end) r else closed ++ spm_runs (at_ + len_utf8 c) None r
  end.
Definition sp_engines : engines :=
  mkEngines (fun p => match p with PaRegex [] => None | _ => Some (spm_runs 0 None) end) (fun s => if str_eqb s [] then None else Some (fun _ => None)) (map (fun c => [c])).
Definition sp_platform : platform Z :=
  mkPlatform z_arith (pf_floats bl_platform) (pf_by_rank bl_platform) (pf_by_key bl_platform) sp_engines (pf_norm bl_platform) (pf_pre bl_platform)
    (pf_space bl_platform) (pf_word bl_platform) (pf_blank bl_platform) (pf_build bl_platform) (pf_pop bl_platform) (pf_draws bl_platform).
Definition sp_ids (g : config Z) (s : str) : res unit (list N) := let! e := boxed (encode (runtime sp_platform g) OChar (Single (Raw s)) true) in Ok (ids e).
Definition sp_trip (g : config Z) (skip : bool) (s : str) : res unit str := let! l := sp_ids g s in decode_ids sp_platform g skip l.
Definition sp_texts : reduction str := RNode (RLeaf (key "ab ab")) (RLeaf (key "ab b")).
(** "▁" is 9601. *)
Definition sp_mark (s : string) : str := 9601%N :: key s.
Definition sp_vocab : list (str * N) := combine [key "<unk>"; sp_mark ""; key "a"; key "b"; key "ab"; sp_mark "ab"] (map N.of_nat (seq 0 6)).
Definition sp_merges : list (str * str) := [(key "a", key "b"); (sp_mark "", key "ab")].
Definition sp_bpe : config Z := match spm_bpe_new sp_platform (Some sp_vocab) (Some sp_merges) spm_defaults with Ok g => g | _ => tokenizer_new (MBpe bpe_default) end.
Definition sp_pieces : list (str * Z) := combine [key "<unk>"; sp_mark ""; key "a"; key "b"; sp_mark "ab"] [0; -4; -4; -4; -2]%Z.
Definition sp_uni : config Z := match spm_uni_new sp_platform (Some sp_pieces) [9601%N] true with Ok g => g | _ => tokenizer_new (MBpe bpe_default) end.
Definition sp_file (fallback : bool) : spm_file := mkSpmFile (sp_pieces ++ combine [key "<0xC3>"; key "<0xA9>"] [-9; -9]%Z) 0 1 fallback (Some (key "AAAA")).
Definition sp_scratch : config Z := match spm_bpe_new sp_platform None None spm_defaults with Ok g => g | _ => tokenizer_new (MBpe bpe_default) end.
Definition sp_start : config Z := match spm_uni_new sp_platform None [9601%N] true with Ok g => g | _ => tokenizer_new (MBpe bpe_default) end.
Definition sp_unk : list item := [ItStr (key "<unk>")].
Definition sp_train (items : list item) (g : config Z) : res unit (config Z) := spm_bpe_train sp_platform sort_count pop_first 30 2 1000 [] [] items sp_texts g.
Definition sp_learn : uni_trainer -> list (str * N) -> res ut_error (unigram Z * list str) :=
  learned sp_platform UnigramTrainProps.z_tarith (fun lo k => (lo + Z.of_nat k)%Z) 0%Z (fun x => Z.leb 524288 x) (fun sum c => Z.log2 c - Z.log2 sum)%Z (fun l => l) UnigramTrainProps.ex_suffix 3 6 2
    (fun _ => UnigramTrainModel.RNode UnigramTrainModel.RLeaf (UnigramTrainModel.RNode UnigramTrainModel.RLeaf UnigramTrainModel.RLeaf)) 25 NBestProps.z_pop 3.
Definition sp_utrain (unk : option str) (items : option (list item)) (g : config Z) : res unit (config Z) := spm_uni_train sp_platform sort_count pop_first sp_learn 8 [] unk [] items sp_texts g.

Lemma sp_finds : finds_runs sp_platform.
Proof.
  intros s. change (find_runs sp_platform s) with (spm_runs 0 None s).
  assert (G : forall s p from lo, match from with Some a => exists p1 p2, p = p1 ++ p2 /\ a = blen p1 /\ lo <= a | None => lo <= blen p end -> engine_matches (p ++ s) lo (spm_runs (blen p) from s)).
  { clear s. induction s as [|c s IH]; intros p from lo H; cbn [spm_runs].
    - destruct from as [a|]; [|exact Logic.I]. destruct (2 <=? blen p - a) eqn:E; [|exact Logic.I]. destruct H as (p1 & p2 & -> & -> & L). cbn [engine_matches]. rewrite app_nil_r. split; [exact L|]. split; [lia|].
      split; [apply is_boundary_spec; exists p1, p2; auto|]. split; [apply is_boundary_len|exact Logic.I].
    - assert (EQ : p ++ c :: s = (p ++ [c]) ++ s) by (rewrite <- app_assoc; reflexivity). assert (EB : blen p + len_utf8 c = blen (p ++ [c])) by (rewrite blen_app; cbn [blen]; lia).
      destruct (N.eqb_spec c 32) as [->|NE].
      + change (blen p + 1) with (blen p + len_utf8 32). rewrite EB, EQ. apply IH. destruct from as [a|].
        * destruct H as (p1 & p2 & -> & -> & L). exists p1, (p2 ++ [32%N]). rewrite app_assoc. auto.
        * exists p, [32%N]. auto.
      + rewrite EB. assert (T : forall lo', lo' <= blen p -> engine_matches (p ++ c :: s) lo' (spm_runs (blen (p ++ [c])) None s)) by (intros lo' L; rewrite EQ; apply IH; lia).
        destruct from as [a|]; [|apply T; exact H]. destruct H as (p1 & p2 & -> & -> & L). destruct (2 <=? blen (p1 ++ p2) - blen p1) eqn:E; cbn [app].
        * cbn [engine_matches]. split; [exact L|]. split; [lia|]. split; [apply is_boundary_spec; exists p1, (p2 ++ c :: s); rewrite app_assoc; auto|]. split; [apply is_boundary_spec; exists (p1 ++ p2), (c :: s); auto|]. apply T. lia.
        * apply T. rewrite blen_app. lia. }
  assert (Z : forall s n from, match from with Some a => a <= n | None => True end -> match spm_runs n from s with (0, 0) :: _ => False | _ => True end).
  { clear. induction s as [|c s IH]; intros n from H; cbn [spm_runs].
    - destruct from as [a|]; [|exact Logic.I]. destruct (2 <=? n - a) eqn:E; [|exact Logic.I]. destruct a, n; try exact Logic.I. discriminate E.
    - destruct (N.eqb c 32); [apply IH; destruct from; lia|]. destruct from as [a|]; [|apply IH; exact Logic.I]. destruct (2 <=? n - a) eqn:E; cbn [app]; [|apply IH; exact Logic.I]. destruct a, n; try exact Logic.I. discriminate E. }
  split; [apply (G s [] None 0); cbn; lia|]. specialize (Z s 0 None Logic.I). destruct (spm_runs 0 None s) as [|[[|a] [|b]] l]; try exact Logic.I. destruct Z.
Qed.
Lemma sp_ordinary : ordinary sp_platform.
Proof. split; [exact NormalizersProps.C68_tables_example|]. split; [exact toy_sane|exact pop_min_ok]. Qed.
Lemma sp_sound : sound_vocab sp_vocab.
Proof.
  split; [apply (nodup_check str_eqb); [apply str_eqb_eq|vm_compute; reflexivity]|]. split; [apply (nodup_check N.eqb); [apply N.eqb_eq|vm_compute; reflexivity]|].
  intros t i H. assert (G : forallb (fun x : str * N => N.ltb (snd x) (N.of_nat (List.length sp_vocab))) sp_vocab = true) by (vm_compute; reflexivity).
  rewrite forallb_forall in G. specialize (G _ H). cbn [snd] in G. lia.
Qed.
Lemma sp_free (s : str) : ~ In 117%N s -> none_in [special_text (key "<unk>")] s.
Proof.
  intros N. constructor; [|constructor]. right. intros (a & b & E). apply N. rewrite E. apply in_or_app. right. apply in_or_app. left. right. left. reflexivity.
Qed.
Lemma sp_unwritten (s : str) : ~ In 117%N s -> Forall (unwritten 9601 s) [special_text (key "<unk>")].
Proof.
  intros N. constructor; [|constructor]. intros _ _. split; [cbn; intuition discriminate|]. intros (a & b & E). apply N. rewrite E. apply in_or_app. right. apply in_or_app. left. right. left. reflexivity.
Qed.

(** BPE: " ab  a" comes back without its first space. *)
Example C99_bpe_example : sound_vocab sp_vocab /\ (forall l, NoDup (map fst l) -> pf_build sp_platform l = true) /\ acceptable sp_vocab None sp_merges /\ ordinary sp_platform /\
  spm_bpe_new sp_platform (Some sp_vocab) (Some sp_merges) spm_defaults = Ok sp_bpe /\
  (let n := normal_text (pf_norm sp_platform) bpe_normal (key " ab  a") in n = key " ab  a" /\ text n /\ none_in [special_text (key "<unk>")] n /\ ~ In 9601%N n /\
   (forall c, In c (seen 9601 true n) -> In [c] (map fst sp_vocab)) /\ Forall (unwritten 9601 n) [special_text (key "<unk>")]) /\
  sp_ids sp_bpe (key " ab  a") = Ok [5; 1; 1; 2]%N /\ sp_trip sp_bpe true (key " ab  a") = Ok (key "ab  a").
Proof.
  split; [exact sp_sound|]. split; [exact bl_builds|]. split.
  { intros a b [H|[H|[]]]; injection H as <- <-; (split; [cbn; tauto|]); (split; [cbn; tauto|]).
    - exists (key "ab"). split; [exists [], (key "b"); repeat split|cbn; tauto].
    - exists (sp_mark "ab"). split; [exists [], (key "ab"); repeat split|cbn; tauto]. }
  split; [exact sp_ordinary|]. split; [vm_compute; reflexivity|]. split.
  { cbn zeta. change (normal_text (pf_norm sp_platform) bpe_normal (key " ab  a")) with (key " ab  a"). split; [reflexivity|]. split; [repeat constructor|]. split; [apply sp_free; cbn; intuition discriminate|]. split; [cbn; intuition discriminate|]. split.
    - intros c Ic. change (seen 9601 true (key " ab  a")) with [9601; 97; 98; 9601; 9601; 97]%N in Ic. cbn in Ic. intuition (subst; cbn; tauto).
    - apply sp_unwritten. cbn. intuition discriminate. }
  split; [vm_compute; reflexivity|]. vm_compute. reflexivity.
Qed.

Lemma sp_scores (m : unigram Z) : scores_ok (pf_arith sp_platform) (fun _ => True) m.
Proof. split; [exact z_laws|]. split; auto. Qed.
Lemma sp_text_pieces : Forall (fun e : str * Z => text (fst e)) (sf_pieces (sp_file true)).
Proof. repeat constructor. Qed.

(** Unigram: the two spaces become one. *)
Example C99_unigram_example : spm_uni_new sp_platform (Some sp_pieces) [9601%N] true = Ok sp_uni /\ NoDup (map fst sp_pieces) /\ Forall (fun e => text (fst e)) sp_pieces /\
  (forall m, g_model sp_uni = MUnigram m -> scores_ok (pf_arith sp_platform) (fun _ => True) m) /\ finds_runs sp_platform /\
  (let n := normal_text (pf_norm sp_platform) (uni_normal sp_platform) (key " ab  a") in n = key " ab a" /\ forall c, In c (seen 9601 true n) -> In [c] (map fst sp_pieces)) /\
  sp_ids sp_uni (key " ab  a") = Ok [4; 1; 2]%N /\ sp_trip sp_uni true (key " ab  a") = Ok (key "ab a").
Proof.
  split; [vm_compute; reflexivity|]. split; [apply (nodup_check str_eqb); [apply str_eqb_eq|vm_compute; reflexivity]|]. split; [repeat constructor|]. split; [intros m _; apply sp_scores|]. split; [exact sp_finds|]. split; [|split; vm_compute; reflexivity].
  cbn zeta. assert (E : normal_text (pf_norm sp_platform) (uni_normal sp_platform) (key " ab  a") = key " ab a") by (vm_compute; reflexivity). rewrite E. split; [reflexivity|].
  intros c Ic. change (seen 9601 true (key " ab a")) with [9601; 97; 98; 9601; 97]%N in Ic. cbn in Ic. intuition (subst; cbn; tauto).
Qed.

(** The same from a file. *)
Example C99_file_example : NoDup (map fst (sf_pieces (sp_file true))) /\ Forall (fun e => text (fst e)) (sf_pieces (sp_file true)) /\ chart_ok sp_platform (sf_chart (sp_file true)) /\
  (let n := normal_text (pf_norm sp_platform) (file_normal sp_platform (sf_chart (sp_file true))) (key " ab  a") in n = key " ab a" /\
    (forall c, In c (seen 9601 true n) -> In [c] (map fst (sf_pieces (sp_file true)))) /\
    forall u w, nth_error (sf_pieces (sp_file true)) (N.to_nat (sf_unk (sp_file true))) = Some (u, w) -> ~ occurs u (seen 9601 true n)) /\
  exists g, from_spm sp_platform (sp_file true) = Ok g /\ sp_ids g (key " ab  a") = Ok [4; 1; 2]%N /\ sp_trip g true (key " ab  a") = Ok (key "ab a").
Proof.
  split; [apply (nodup_check str_eqb); [apply str_eqb_eq|vm_compute; reflexivity]|]. split; [exact sp_text_pieces|]. split.
  { split; [|intros s x _ H; discriminate H]. intros s. cbn [sp_platform pf_engines sp_engines en_graphemes]. split; [induction s as [|c s IH]; [reflexivity|cbn [map concat app]; rewrite IH; reflexivity]|]. apply Forall_map. apply Forall_forall. discriminate. }
  split.
  { cbn zeta. assert (E : normal_text (pf_norm sp_platform) (file_normal sp_platform (sf_chart (sp_file true))) (key " ab  a") = key " ab a") by (vm_compute; reflexivity). rewrite E. split; [reflexivity|].
    change (seen 9601 true (key " ab a")) with [9601; 97; 98; 9601; 97]%N. split; [intros c Ic; cbn in Ic; intuition (subst; cbn; tauto)|].
    intros u w H (a & b & X). injection H as <- _. assert (I : In 117%N [9601; 97; 98; 9601; 97]%N) by (rewrite X; apply in_or_app; right; right; left; reflexivity). cbn in I. intuition discriminate. }
  eexists. split; [vm_compute; reflexivity|]. split; vm_compute; reflexivity.
Qed.

Lemma sp_counted wc : counted (training_words (runtime sp_platform sp_scratch)) (leaves sp_texts) wc -> small_corpus wc.
Proof.
  intros C. unfold small_corpus. assert (X : forall w n, In (w, n) wc -> (w = sp_mark "ab" /\ n = 3%N) \/ (w = sp_mark "b" /\ n = 1%N)).
  { intros w n I. apply C in I. destruct I as [EN L].
    assert (E1 : training_words (runtime sp_platform sp_scratch) (key "ab ab") = Ok [sp_mark "ab"; sp_mark "ab"]) by (vm_compute; reflexivity).
    assert (E2 : training_words (runtime sp_platform sp_scratch) (key "ab b") = Ok [sp_mark "ab"; sp_mark "b"]) by (vm_compute; reflexivity).
    assert (NE : sp_mark "ab" <> sp_mark "b") by discriminate. change (leaves sp_texts) with [key "ab ab"; key "ab b"] in EN.
    destruct (two_texts _ _ _ _ _ w NE E1 E2) as [[H1 H2]|[H1 H2]]; [lia|left|right]; rewrite EN, H2; split; auto. }
  destruct C as [D _]. assert (L : incl wc [(sp_mark "ab", 3%N); (sp_mark "b", 1%N)]).
  { intros [w n] I. destruct (X w n I) as [[-> ->]|[-> ->]]; [left; reflexivity|right; left; reflexivity]. }
  assert (ND : NoDup wc) by (eapply NoDup_map_inv; exact D).
  destruct wc as [|a [|b [|c wc]]]; [cbn; lia| | |apply NoDup_incl_length in L; [cbn in L; lia|exact ND]].
  - destruct (L a (or_introl eq_refl)) as [<-|[<-|[]]]; vm_compute; reflexivity.
  - destruct (L a (or_introl eq_refl)) as [<-|[<-|[]]], (L b (or_intror (or_introl eq_refl))) as [<-|[<-|[]]]; vm_compute; reflexivity.
Qed.

(** BPE trained on "ab ab" and "ab b". *)
Example C99_bpe_trained_example : spm_bpe_new sp_platform None None spm_defaults = Ok sp_scratch /\ collect true [] sp_unk = ([], Ok [special_text (key "<unk>")]) /\
  (forall wc, counted (training_words (runtime sp_platform sp_scratch)) (leaves sp_texts) wc -> small_corpus wc) /\ Forall text (leaves sp_texts) /\ Forall verbatim [special_text (key "<unk>")] /\
  exists g1, sp_train sp_unk sp_scratch = Ok g1 /\ sp_ids g1 (key "ab b") = Ok [5; 3; 2]%N /\ sp_trip g1 true (key "ab b") = Ok (key "ab b").
Proof.
  split; [vm_compute; reflexivity|]. split; [reflexivity|]. split; [exact sp_counted|]. split; [repeat constructor|]. split; [repeat constructor|]. eexists. split; [vm_compute; reflexivity|]. split; [vm_compute; reflexivity|]. vm_compute. reflexivity.
Qed.

(** Unigram trained on them. *)
Example C99_unigram_trained_example : any_order (fun l : list str => l) /\ UnigramTrainSpec.lists_parts UnigramTrainProps.ex_suffix /\ spm_uni_new sp_platform None [9601%N] true = Ok sp_start /\
  Forall (own_token (map (fun s => seen 9601 true (normal_text (pf_norm sp_platform) (uni_normal sp_platform) s)) (leaves sp_texts)) []) [key "<unk>"; key "<unk>"] /\
  exists g1, sp_utrain (Some (key "<unk>")) (Some sp_unk) sp_start = Ok g1 /\ (forall m, g_model g1 = MUnigram m -> scores_ok (pf_arith sp_platform) (fun _ => True) m) /\
    sp_ids g1 (key "b  ab") = Ok [2; 1]%N /\ sp_trip g1 true (key "b  ab") = Ok (key "b ab") /\ sp_trip g1 false (key "ab z") = Ok (key "ab <unk>").
Proof.
  split; [intros l; apply Permutation_refl|]. split; [exact (proj1 UnigramTrainProps.ex_suffix_ok)|]. split; [vm_compute; reflexivity|]. split.
  { assert (O : own_token (map (fun s => seen 9601 true (normal_text (pf_norm sp_platform) (uni_normal sp_platform) s)) (leaves sp_texts)) [] (key "<unk>")).
    { split; [|intros c []]. intros w I (a & b & X). assert (J : In 117%N w) by (rewrite X; apply in_or_app; right; right; left; reflexivity). clear X. vm_compute in I. destruct I as [<-|[<-|[]]]; cbn in J; intuition discriminate. }
    constructor; [exact O|]. constructor; [exact O|constructor]. }
  eexists. split; [vm_compute; reflexivity|]. split; [intros m _; apply sp_scores|]. split; [vm_compute; reflexivity|]. split; [vm_compute; reflexivity|]. vm_compute. reflexivity.
Qed.

(** One space in front of a text is lost, as [add_prefix_space] puts one there only if
    there is none. *)
Theorem C99_leading_refuted : exists g, spm_bpe_new sp_platform (Some sp_vocab) (Some sp_merges) spm_defaults = Ok g /\ sp_ids g (key " ab") = Ok [5]%N /\ sp_ids g (key "ab") = Ok [5]%N.
Proof. eexists. split; [vm_compute; reflexivity|]. split; vm_compute; reflexivity. Qed.

(** A Unigram tokenizer made from a vocabulary has no unknown token, even if "<unk>" is in
    the vocabulary: a text with another character cannot be encoded.  So it is after
    training without [unk_token], which is the default. *)
Theorem C99_unknown_refuted : In (key "<unk>") (map fst sp_pieces) /\ spm_uni_new sp_platform (Some sp_pieces) [9601%N] true = Ok sp_uni /\ sp_ids sp_uni (key "a") = Ok [1; 2]%N /\ sp_ids sp_uni (key "az") = Err tt /\
  exists g1, sp_utrain None None sp_start = Ok g1 /\ sp_ids g1 (key "b") = Ok [1]%N /\ sp_ids g1 (key "bz") = Err tt.
Proof. split; [cbn; tauto|]. split; [vm_compute; reflexivity|]. split; [vm_compute; reflexivity|]. split; [vm_compute; reflexivity|]. eexists. split; [vm_compute; reflexivity|]. split; vm_compute; reflexivity. Qed.

(** A file with byte fallback: the bytes are encoded, but the decoder does not put them
    together, so "aé" comes back as "a<0xC3><0xA9>". *)
Theorem C99_bytes_refuted : exists g, from_spm sp_platform (sp_file true) = Ok g /\ sp_ids g [97; 233]%N = Ok [1; 2; 5; 6]%N /\ sp_trip g true [97; 233]%N = Ok (key "a<0xC3><0xA9>").
Proof. eexists. split; [vm_compute; reflexivity|]. split; vm_compute; reflexivity. Qed.

(** BPE: an unknown character is decoded to "<unk>", and to nothing if special tokens are
    skipped; if "<unk>" is not in the vocabulary it is an error. *)
Theorem C99_bpe_unknown_refuted : sp_trip sp_bpe false (key "az") = Ok (key "a<unk>") /\ sp_trip sp_bpe true (key "az") = Ok (key "a") /\
  exists g1, sp_train [] sp_scratch = Ok g1 /\ sp_ids g1 (key "b") = Ok [2; 1]%N /\ sp_ids g1 (key "bz") = Err tt.
Proof. split; [vm_compute; reflexivity|]. split; [vm_compute; reflexivity|]. eexists. split; [vm_compute; reflexivity|]. split; vm_compute; reflexivity. Qed.
