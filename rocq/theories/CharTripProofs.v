(** Proofs for C90 and C91. *)
From Verif Require Import Base ListFacts StrBytes Utf8 AMap EncodingModel EncodingSpec NormModel NormalizersModel NormalizersSpec PatternModel PatternSpec PatternProofs
  PreTokenizersModel PreTokenizersSpec DecodersModel DecodersSpec DecodersProofs AddedModel AddedSpec AddedProofs AddedProofs2 AddedProps
  BpeWordModel BpeWordSpec BpeModel BpeSpec BpeProofs BpeProps TokenizerModel EndToEndProofs PreTokModel RoundTripModel RoundTripSpec RoundTripProofs WordPieceModel WordPieceSpec SpmTripModel SpmTripSpec
  WordTripModel WordTripSpec WordTripProofs CharTripModel CharTripSpec.

(** ** The tokens of a word *)
Definition ended (sf w : str) (vs : list str) : Prop :=
  exists xs x, vs = xs ++ [x ++ sf] /\ w = concat xs ++ x /\ Forall (fun y => y <> []) xs /\ x <> [].

Lemma ranges_last s sf : forall toks pre rest,
  s = pre ++ rest -> rest <> [] -> ranges_from (blen pre) (map t_offsets toks) (blen s) ->
  (forall t, In t toks -> exists p x q, s = p ++ x ++ q /\ t_offsets t = (blen p, blen p + blen x) /\ t_value t = x ++ match q with [] => sf | _ => [] end) ->
  ended sf rest (map t_value toks) /\ Forall (fun t => fst (t_offsets t) < snd (t_offsets t) <= blen s) toks.
Proof.
  induction toks as [|t toks IH]; intros pre rest E NR R V; cbn [map ranges_from] in *.
  - exfalso. rewrite E, blen_app in R. apply NR. apply blen_0. lia.
  - destruct (V t (or_introl eq_refl)) as (p & x & q & E1 & E2 & E3). rewrite E2 in R. destruct R as (R1 & R2 & R3).
    assert (p = pre /\ rest = x ++ q) as [-> ->].
    { pose proof (str_get_app [] p (x ++ q)) as G1. pose proof (str_get_app [] pre rest) as G2. cbn [app blen] in G1, G2. rewrite <- E1, R1 in G1. rewrite <- E, G1 in G2. injection G2 as ->.
      split; [reflexivity|]. rewrite E in E1. apply app_inv_head in E1. exact E1. }
    assert (NX : x <> []) by (intros ->; cbn [blen] in R2; lia).
    assert (OT : fst (t_offsets t) < snd (t_offsets t) <= blen s) by (rewrite E2; cbn [fst snd]; rewrite E, !blen_app; lia).
    destruct q as [|c q].
    + rewrite app_nil_r in *. destruct toks as [|u toks].
      * split; [|constructor; [exact OT|constructor]]. exists [], x. rewrite E3. cbn. auto.
      * exfalso. cbn [map ranges_from] in R3. destruct (V u (or_intror (or_introl eq_refl))) as (p' & x' & q' & E1' & E2' & _). rewrite E2' in R3. destruct R3 as (R3 & R4 & _).
        apply (f_equal blen) in E1'. rewrite !blen_app in E1'. apply (f_equal blen) in E. rewrite blen_app in E. lia.
    + destruct (IH (pre ++ x) (c :: q)) as [C F]; [rewrite <- app_assoc; exact E|discriminate|rewrite blen_app; exact R3|intros u Hu; apply V; right; exact Hu|].
      split; [|constructor; assumption]. destruct C as (xs & y & C1 & C2 & C3 & C4). exists (x :: xs), y. rewrite C1, E3, app_nil_r, C2. cbn [concat app]. rewrite app_assoc. auto 10.
Qed.

Lemma suffix_decorate vocab merges m sf a b x : built_facts vocab merges None m -> b_suffix m = Some sf -> decorate m a b x = x ++ (if b then sf else []).
Proof. intros B S. unfold decorate. rewrite (bf_prefix _ _ _ _ B), S. destruct a, b; rewrite ?app_nil_r; reflexivity. Qed.

Lemma char_values pop vocab merges sf m draws w : heap_ok pop -> char_bpe vocab merges sf m -> in_alphabet vocab sf w ->
  exists toks, bpe_tokenize pop m draws w = Ok toks /\ ended sf w (map t_value toks) /\
    Forall (fun t => In (t_value t, t_id t) vocab) toks /\ Forall (fun t => fst (t_offsets t) < snd (t_offsets t) <= blen w) toks.
Proof.
  intros HP (BT & SF & IG & NS & ND & _) (NW & AL). pose proof BT as [D1 (d & unk & sf' & fu & fb & ig & B)]. apply build_facts in B.
  assert (AK : forall p c q, w = p ++ c :: q -> known_char m (is_nil p) (is_nil q) c).
  { intros p c q E. specialize (AL p c q E). unfold known_char. rewrite (suffix_decorate _ _ _ _ _ _ _ B SF). unfold b_id. rewrite (bf_vocab _ _ _ _ B).
    apply in_map_iff in AL. destruct AL as ([y i] & Ey & Hin). cbn [fst] in Ey. subst y.
    replace ([c] ++ (if is_nil q then sf else [])) with (c :: match q with [] => sf | _ => [] end) by (destruct q; reflexivity).
    rewrite (In_aget str_eqb str_eqb_eq _ _ _ D1 Hin). discriminate. }
  assert (OK : exists toks, bpe_tokenize pop m draws w = Ok toks).
  { unfold bpe_tokenize, tokenize_plain. destruct (is_nil w); [eauto|].
    destruct (known_word pop vocab merges None m no_draw w HP B AK) as (t1 & _ & _ & E1 & _).
    destruct (known_word pop vocab merges None m draws w HP B AK) as (t2 & _ & _ & E2 & _).
    rewrite E1, E2. destruct (b_dropout m), (if b_ignore_merges m then b_id m w else None); eauto. }
  destruct OK as (toks & H). exists toks. split; [exact H|].
  destruct (C33_cover _ _ _ _ _ _ _ _ HP BT H) as (e & RG & CV). rewrite CV in RG by (intros p c q E; left; apply AK; exact E).
  destruct (ranges_last w sf toks [] w eq_refl NW RG) as [C F].
  { intros t Ht. destruct (C33_known_word _ _ _ _ _ _ _ _ _ HP BT ND AK H Ht) as (pre & x & post & E1 & E2 & E3). exists pre, x, post. split; [exact E1|]. split; [exact E2|].
    destruct E3 as [E3|(X & _)]; [|congruence]. rewrite E3. unfold in_place. rewrite (suffix_decorate _ _ _ _ _ _ _ B SF). destruct post; reflexivity. }
  split; [exact C|]. split; [|exact F]. apply Forall_forall. intros t Ht. eapply C33_values; eauto.
Qed.

(** ** Decoding them *)
Lemma once_absent sf w xs x y : sf <> [] -> ends_once sf w -> w = concat xs ++ x -> In y xs -> ~ occurs sf y.
Proof.
  intros NS O E I (a & b & Y). apply in_split in I. destruct I as (l1 & l2 & ->). rewrite concat_app in E. cbn [concat] in E. subst y.
  specialize (O (concat l1 ++ a) (b ++ concat l2 ++ x ++ sf)). rewrite E in O. rewrite <- !app_assoc in O. specialize (O eq_refl).
  destruct sf; [congruence|]. repeat (apply app_eq_nil in O; destruct O as [_ O]). discriminate.
Qed.

Lemma scan_end sf rep : forall x, sf <> [] -> ends_once sf x -> replace_scan sf rep 0 (x ++ sf) = x ++ rep.
Proof.
  intros x NS. induction x as [|c x IH]; intros O.
  - cbn [app]. pose proof (str_replace_whole sf rep NS) as W. unfold str_replace in W. destruct sf; [congruence|exact W].
  - cbn [app replace_scan]. destruct (is_prefix sf (c :: x ++ sf)) eqn:P.
    + exfalso. apply is_prefix_spec in P. destruct P as (b & P). specialize (O [] b). cbn [app] in O. specialize (O P). subst b. rewrite app_nil_r in P. apply (f_equal (@length _)) in P. cbn [length] in P. rewrite app_length in P. lia.
    + rewrite IH; [reflexivity|]. intros a b E. apply (O (c :: a) b). cbn [app]. rewrite E. reflexivity.
Qed.

Lemma once_tail sf u x : ends_once sf (u ++ x) -> ends_once sf x.
Proof. intros O a b E. apply (O (u ++ a) b). rewrite <- !app_assoc, E. reflexivity. Qed.

Definition spaced_end (more : bool) (w : str) : str := if more then w ++ [32%N] else w.
Lemma word_back sf w vs rest : sf <> [] -> ends_once sf w -> ended sf w vs ->
  concat (bpe_decode_from sf (vs ++ rest)) = spaced_end (negb (is_nil rest)) w ++ concat (bpe_decode_from sf rest).
Proof.
  intros NS O (xs & x & -> & E & _ & _). assert (A : Forall (fun y => ~ occurs sf y) xs) by (apply Forall_forall; intros y I; eapply once_absent; eauto).
  assert (OX : ends_once sf x) by (eapply once_tail; rewrite <- E; exact O). rewrite E. clear E O.
  induction A as [|y xs Hy _ IH]; cbn [app concat].
  - cbn [bpe_decode_from concat]. unfold str_replace. replace (is_nil sf) with false by (destruct sf; [congruence|reflexivity]). rewrite scan_end by assumption. unfold spaced_end. destruct rest; cbn [is_nil negb]; [rewrite app_nil_r|]; reflexivity.
  - cbn [app bpe_decode_from concat]. rewrite str_replace_absent by assumption. cbn [app concat] in IH. rewrite IH. unfold spaced_end. destruct (negb (is_nil rest)); rewrite <- !app_assoc; reflexivity.
Qed.

Lemma words_back sf : forall ws vss, sf <> [] -> Forall2 (ended sf) ws vss -> Forall (ends_once sf) ws -> concat (bpe_decode_from sf (concat vss)) = join_spaces ws.
Proof.
  intros ws vss NS. induction 1 as [|w vs ws vss H F IH]; intros O; [reflexivity|]. apply Forall_cons_iff in O. destruct O as [O1 O2]. cbn [concat]. rewrite (word_back sf w) by assumption. rewrite IH by exact O2.
  inversion F as [|v us ws' vss' H' F']; subst; cbn [concat is_nil negb spaced_end join_spaces]; [apply app_nil_r|].
  replace (is_nil (us ++ concat vss')) with false by (destruct H' as (xs & x & -> & _); destruct xs; reflexivity). cbn [negb spaced_end]. rewrite <- app_assoc. reflexivity.
Qed.

Lemma marked_once T sf w : marked T sf -> bert_word T w -> ends_once sf w.
Proof.
  intros (c & d & y & -> & ND & P) (NW & _ & H) a b E.
  destruct (Nat.le_gt_cases (length w) (length a)) as [L|L].
  - apply (f_equal (@length _)) in E. rewrite !app_length in E. cbn [length] in E. destruct b; [reflexivity|cbn [length] in E; lia].
  - exfalso. assert (EC : exists w1, w = a ++ c :: w1).
    { assert (X : w = a ++ skipn (length a) w /\ skipn (length a) w ++ c :: d :: y = (c :: d :: y) ++ b).
      { assert (XA : firstn (length a) w = a). { apply (f_equal (firstn (length a))) in E. rewrite !firstn_app, firstn_all, Nat.sub_diag in E. replace (length a - length w) with 0 in E by lia. cbn [firstn] in E. rewrite !app_nil_r in E. exact E. }
        split; [rewrite <- XA at 1; symmetry; apply firstn_skipn|]. rewrite <- (firstn_skipn (length a) w), XA, <- app_assoc in E. apply app_inv_head in E. exact E. }
      destruct X as [X1 X2]. destruct (skipn (length a) w) as [|e z] eqn:EZ.
      - rewrite app_nil_r in X1. subst a. lia.
      - cbn [app] in X2. injection X2 as -> _. eauto. }
    destruct EC as (w1 & EC). destruct H as [(e & -> & _)|Q].
    + destruct a as [|? [|? ?]]; cbn in EC; [|discriminate|discriminate]. injection EC as -> <-. cbn [app] in E. injection E as E _. congruence.
    + rewrite Forall_forall in Q. apply (Q c); [|exact P]. rewrite EC. apply in_or_app. right. left. reflexivity.
Qed.

(** ** Ids of a text *)
Lemma char_ids pop vocab merges sf m draws t TN nz TP p offered s ty ot :
  word_tokenizer t (bpe_vocabulary m) TN nz TP p offered -> heap_ok pop -> tz_model t = bpe_model pop m draws -> char_bpe vocab merges sf m -> tz_truncation t = None -> text s -> none_in offered s ->
  (forall ws, words_of TP p (normal_text TN nz s) ws -> Forall (in_alphabet vocab sf) ws) ->
  exists e ws tss, encode_part t ty ot None s = Ok e /\ words_of TP p (normal_text TN nz s) ws /\ Forall text ws /\
    Forall2 (fun w toks => bpe_model pop m draws w = Ok toks) ws tss /\ Forall2 (ended sf) ws (map (map t_value) tss) /\
    ids e = map t_id (concat tss) /\ Forall (token_named (bpe_vocabulary m) (tz_added t)) (concat tss).
Proof.
  intros WT HP TM CB HT TX NI AL. pose proof CB as (BT & _ & _ & _ & ND & DN).
  destruct (word_ids t (bpe_vocabulary m) TN nz TP p offered s ty ot) as (e & ws & tss & E & W & TW & A & I & N); auto.
  - eapply bpe_model_ok; eauto.
  - intros ws W. eapply Forall_impl; [|exact (AL ws W)]. intros w Aw. destruct (char_values pop vocab merges sf m (draws w) w HP CB Aw) as (toks & E1 & _ & E3 & E4).
    exists toks. unfold answers. rewrite TM. unfold bpe_model. rewrite E1. split; [reflexivity|]. apply Forall_forall. intros u Hu. rewrite Forall_forall in E3, E4. split; [|auto].
    cbn [bpe_vocabulary mv_token_to_id]. destruct BT as [D1 (d & unk & sf' & fu & fb & ig & B)]. apply build_facts in B. unfold b_id. rewrite (bf_vocab _ _ _ _ B). apply (In_aget str_eqb str_eqb_eq); auto.
  - exists e, ws, tss. split; [exact E|]. split; [exact W|]. split; [exact TW|]. rewrite TM in A. specialize (AL ws W). split; [|split; [|auto]].
    + clear -A. induction A as [|w ts ws tss [H _] _ IH]; constructor; assumption.
    + clear -A AL HP CB. revert AL. induction A as [|w ts ws tss [H _] _ IH]; intros AL; [constructor|]. apply Forall_cons_iff in AL. destruct AL as [A1 A2]. cbn [map]. constructor; [|auto].
      destruct (char_values pop vocab merges sf m (draws w) w HP CB A1) as (toks & E1 & E2 & _). unfold bpe_model in H. rewrite E1 in H. injection H as <-. exact E2.
Qed.

Lemma same_answers {A B} (f : A -> res unit B) : forall ws us vs, Forall2 (fun w u => f w = Ok u) ws us -> Forall2 (fun w u => f w = Ok u) ws vs -> us = vs.
Proof. intros ws us vs H. revert vs. induction H as [|w u ws us H _ IH]; intros vs H'; inversion H' as [|? v ? vs' X Y]; subst; [reflexivity|]. f_equal; [congruence|auto]. Qed.

Lemma unfiltered av vs : filter (fun v => negb (false && av_is_special av v)) vs = vs.
Proof. apply filter_all. apply Forall_forall. reflexivity. Qed.

(** ** WordLevel *)
Lemma wl_model_ok m : NoDup (map fst (l_vocab m)) -> NoDup (map snd (l_vocab m)) -> model_ok (wl_vocabulary m).
Proof.
  intros D1 D2. assert (R : forall t i, wl_token_to_id m t = Some i <-> In (t, i) (l_vocab m)).
  { intros t i. unfold wl_token_to_id. split; intros H; [apply (aget_In str_eqb str_eqb_eq); exact H|apply (In_aget str_eqb str_eqb_eq); assumption]. }
  constructor; cbn [wl_vocabulary mv_vocab mv_token_to_id mv_id_to_token mv_size]; auto.
  intros t i. rewrite R. unfold wl_id_to_token. apply reverse_vocab_iff. exact D2.
Qed.

Lemma wl_answers m w : w <> [] -> wl_token_to_id m (l_unk m) <> None -> exists t, answers (wl_vocabulary m) (wl_model m) w [t] /\ listed m w (t_value t).
Proof.
  intros NW HU. unfold answers, wl_model, wl_tokenize. assert (B : 0 < blen w) by (destruct w as [|c w]; [congruence|]; cbn [blen]; pose proof (len_utf8_pos c); lia).
  destruct (aget str_eqb w (l_vocab m)) as [i|] eqn:E.
  - eexists. split; [split; [reflexivity|]|]; cbn [t_value t_id t_offsets fst snd].
    + constructor; [|constructor]. split; [exact E|cbn; lia].
    + left. split; [|reflexivity]. apply key_aget. eauto.
  - unfold wl_token_to_id in HU. destruct (aget str_eqb (l_unk m) (l_vocab m)) as [u|] eqn:EU; [|congruence]. eexists. split; [split; [reflexivity|]|]; cbn [t_value t_id t_offsets fst snd].
    + constructor; [|constructor]. split; [exact EU|cbn; lia].
    + right. split; [|reflexivity]. rewrite key_aget. intros (i & X). congruence.
Qed.

Lemma wl_ids m t TN nz TP p offered s ty ot :
  word_tokenizer t (wl_vocabulary m) TN nz TP p offered -> tz_model t = wl_model m -> sound_wordlevel m -> tz_truncation t = None -> text s -> none_in offered s ->
  (forall ws, words_of TP p (normal_text TN nz s) ws -> Forall (fun w => w <> []) ws) ->
  exists e ws os toks, encode_part t ty ot None s = Ok e /\ words_of TP p (normal_text TN nz s) ws /\ Forall text ws /\
    Forall2 (fun w u => wl_model m w = Ok [u]) ws toks /\ Forall2 (listed m) ws os /\ os = map t_value toks /\
    ids e = map t_id toks /\ Forall (token_named (wl_vocabulary m) (tz_added t)) toks.
Proof.
  intros WT TM (D1 & D2 & DN & HU) HT TX NI NE.
  destruct (word_ids t (wl_vocabulary m) TN nz TP p offered s ty ot) as (e & ws & tss & E & W & TW & A & I & N); auto.
  - apply wl_model_ok; assumption.
  - intros ws W. eapply Forall_impl; [|exact (NE ws W)]. intros w Nw. rewrite TM. destruct (wl_answers m w Nw HU) as (u & AN & _). eauto.
  - specialize (NE ws W). rewrite TM in A.
    assert (X : exists toks, concat tss = toks /\ Forall2 (fun w u => wl_model m w = Ok [u]) ws toks /\ Forall2 (listed m) ws (map t_value toks)).
    { clear -A NE HU. revert NE. induction A as [|w ts ws tss [H _] _ IH]; intros NE; [exists []; repeat split; constructor|]. apply Forall_cons_iff in NE. destruct NE as [N1 N2]. destruct (IH N2) as (toks & C & F1 & F2).
      destruct (wl_answers m w N1 HU) as (u & [E _] & L). rewrite E in H. injection H as <-. exists (u :: toks). cbn [concat app map]. rewrite C. repeat split; constructor; assumption. }
    destruct X as (toks & C & F1 & F2). rewrite C in *. exists e, ws, (map t_value toks), toks. auto 12.
Qed.

Lemma join_space_spaces : forall ws, join_space ws = join_spaces ws.
Proof. induction ws as [|w [|v ws] IH]; [reflexivity|reflexivity|]. cbn [join_space join_spaces] in *. rewrite IH. reflexivity. Qed.

(** ** Words between white space *)
Section spaces_read.
  Context (T : PreTokenizersModel.tables).
  Notation bread := (read T (fun _ => false)).

  Lemma spaces_runs : forall prev s ws, class_runs (fun c => if is_ws T c then None else Some tt) prev s ws -> bread [] s = ws.
  Proof.
    induction 1 as [prev|prev c s ps E _ IH|prev k x s ps N F P R IH]; [reflexivity| |].
    - cbn [read]. destruct (is_ws T c); [exact IH|discriminate].
    - rewrite read_word; [rewrite IH; reflexivity|exact N| |].
      + eapply Forall_impl; [|exact F]. intros c Hc. cbn beta in *. destruct (is_ws T c); [discriminate|]. auto.
      + destruct s as [|c s]; [exact Logic.I|]. left. destruct (is_ws T c) eqn:EW; [reflexivity|]. exfalso. inversion R as [|? ? ? ? E' R'|? k' x' s' ps' N' F' P' R']; subst; [rewrite EW in E'; discriminate|].
        destruct k, k'. congruence.
  Qed.
  Lemma spaces_words s ws : words_of T PtWhitespaceSplit s ws -> ws = bread [] s.
  Proof. unfold words_of. destruct s as [|c s]; [intros ->; reflexivity|]. cbn [pieces_of by_behavior]. intros R. symmetry. eapply spaces_runs. exact R. Qed.

  Lemma runs_inside {K} (cls : char -> option K) : forall prev s ws, class_runs cls prev s ws -> Forall (fun w => w <> [] /\ occurs w s) ws.
  Proof.
    induction 1 as [prev|prev c s ps E _ IH|prev k x s ps N F P R IH]; [constructor| |].
    - eapply Forall_impl; [|exact IH]. intros w [Nw (a & b & ->)]. split; [exact Nw|]. exists (c :: a), b. reflexivity.
    - constructor; [split; [exact N|exists [], s; reflexivity]|]. eapply Forall_impl; [|exact IH]. intros w [Nw (a & b & ->)]. split; [exact Nw|]. exists (x ++ a), b. rewrite app_assoc. reflexivity.
  Qed.
  Lemma spaces_inside s ws : words_of T PtWhitespaceSplit s ws -> Forall (fun w => w <> [] /\ occurs w s /\ Forall (fun c => is_ws T c = false) w) ws.
  Proof.
    unfold words_of. destruct s as [|c s]; [intros ->; constructor|]. cbn [pieces_of by_behavior]. intros R. pose proof (runs_inside _ _ _ _ R) as I. apply runs_spaces in R.
    apply Forall_forall. intros w H. rewrite Forall_forall in I, R. destruct (I w H). auto.
  Qed.

  Lemma spaces_joined : is_ws T 32%N = true -> forall ws, Forall (fun w => w <> [] /\ Forall (fun c => is_ws T c = false) w) ws -> bread [] (join_spaces ws) = ws.
  Proof.
    intros W32. assert (TX : forall w, Forall (fun c => is_ws T c = false) w -> Forall (fun c => is_ws T c = false /\ (fun _ : char => false) c = false) w) by (intros w F; eapply Forall_impl; [|exact F]; auto).
    induction ws as [|w ws IH]; intros F; [reflexivity|]. apply Forall_cons_iff in F. destruct F as [[N F1] F2]. destruct ws as [|v ws].
    - cbn [join_spaces]. rewrite <- (app_nil_r w) at 1. rewrite read_word; [reflexivity|exact N|apply TX; exact F1|exact Logic.I].
    - change (join_spaces (w :: v :: ws)) with (w ++ 32%N :: join_spaces (v :: ws)). rewrite read_word; [|exact N|apply TX; exact F1|left; exact W32]. cbn [read]. rewrite W32. cbn [flushed app]. rewrite IH by exact F2. reflexivity.
  Qed.
End spaces_read.

(** A suffix whose first character is not found again in it. *)
Lemma unbordered_once c y w : ~ In c y -> ~ occurs (c :: y) w -> ends_once (c :: y) w.
Proof.
  intros NC NO a b E. destruct (Nat.le_gt_cases (length w) (length a)) as [L|L].
  - apply (f_equal (@length _)) in E. rewrite !app_length in E. cbn [length] in E. destruct b; [reflexivity|cbn [length] in E; lia].
  - exfalso. assert (XA : firstn (length a) w = a). { apply (f_equal (firstn (length a))) in E. rewrite !firstn_app, firstn_all, Nat.sub_diag in E. replace (length a - length w) with 0 in E by lia. cbn [firstn] in E. rewrite !app_nil_r in E. exact E. }
    rewrite <- (firstn_skipn (length a) w), XA, <- app_assoc in E. apply app_inv_head in E. set (z := skipn (length a) w) in *.
    assert (EW : w = a ++ z) by (rewrite <- XA at 1; symmetry; apply firstn_skipn).
    destruct (Nat.le_gt_cases (length (c :: y)) (length z)) as [M|M].
    + apply NO. exists a, (skipn (length (c :: y)) z). rewrite EW. f_equal. rewrite <- (firstn_skipn (length (c :: y)) z) at 1. f_equal.
      apply (f_equal (firstn (length (c :: y)))) in E. rewrite !firstn_app, firstn_all, Nat.sub_diag in E. replace (length (c :: y) - length z) with 0 in E by lia. cbn [firstn] in E. rewrite !app_nil_r in E. exact E.
    + assert (NZ : z <> []) by (intros X; rewrite X, app_nil_r in EW; subst w; lia).
      apply (f_equal (fun l => nth_error l (length z))) in E. rewrite nth_error_app2, Nat.sub_diag in E by lia. rewrite nth_error_app1 in E by exact M. cbn [nth_error] in E.
      destruct z as [|d z]; [congruence|]. cbn [length nth_error] in E. apply NC. symmetry in E. apply nth_error_In in E. exact E.
Qed.
