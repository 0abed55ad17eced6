(** Theorems about pre-tokenised strings: C21-C24. *)
From Verif Require Import Base ListFacts StrBytes EncodingModel EncodingSpec EncodingProofs EncodingProofs2
  TruncPadProofs NormModel NormSpec NormProofs NormProofs4 NormProofs6 PatternModel PatternSpec NormProps
  PreTokModel PreTokSpec PreTokProofs PreTokProofs2.

(** ** C21 *)
(** Any number of cutting passes: the splits are consecutive parts of the text
    in order, only characters allowed to be dropped are missing. *)
Theorem C21_parts : forall P ns pt,
  aligned ns -> cut_history P ns pt ->
  pt_original pt = n_original ns /\
  ((exists t, pt_splits pt = [mkSplit ns t]) \/ cut_into P ns (map sp_norm (pt_splits pt))) /\
  drops P (n_normalized ns) (concat (split_texts pt)).
Proof.
  intros P ns pt A H. destruct (cut_history_inv P ns A pt H) as [I O]. split; [exact O|]. split.
  - destruct I as [I|[_ I]]; auto.
  - unfold split_texts. destruct I as [[t ->]|[_ I]].
    + cbn. rewrite app_nil_r. apply drops_refl.
    + rewrite <- (map_map sp_norm n_normalized). apply cut_drops. exact I.
Qed.

(** When nothing may be dropped, the texts of the splits concatenate to the text. *)
Theorem C21_lossless : forall ns pt,
  aligned ns -> cut_history (fun _ => False) ns pt -> concat (split_texts pt) = n_normalized ns.
Proof. intros ns pt A H. destruct (C21_parts _ _ _ A H) as (_ & _ & D). apply drops_none in D. auto. Qed.

(** The original ranges of the splits are in order, and each is the place of
    the split's original text in the whole original text. *)
Theorem C21_offsets_ordered : forall P ns pt,
  aligned ns -> cut_history P ns pt ->
  forall i j x y, i < j -> nth_error (pt_splits pt) i = Some x -> nth_error (pt_splits pt) j = Some y ->
    fst (offsets_original (sp_norm x)) <= fst (offsets_original (sp_norm y)) /\
    snd (offsets_original (sp_norm x)) <= snd (offsets_original (sp_norm y)).
Proof.
  intros P ns pt A H i j x y Hij Hi Hj. destruct (cut_history_inv P ns A pt H) as [[[t I]|[N I]] _].
  - rewrite I in Hj. destruct j as [|[|j]]; try discriminate; lia.
  - destruct I as (marks & S & _ & F).
    assert (W : wf_seg (concat (map fst marks))).
    { destruct (aligned_cal _ A) as (cal & S' & W). rewrite (shows_inj _ _ _ S S'). eapply wf_cal_seg; eauto. }
    apply (cut_ordered_aux ns marks _ W F N i j (sp_norm x) (sp_norm y) Hij);
      rewrite nth_error_map; [rewrite Hi|rewrite Hj]; reflexivity.
Qed.

Theorem C21_offsets_inside : forall P ns pt,
  aligned ns -> n_shift ns = 0 -> cut_history P ns pt ->
  Forall (fun sp => located (n_original ns) (sp_norm sp)) (pt_splits pt).
Proof.
  intros P ns pt A Z H. destruct (cut_history_inv P ns A pt H) as [[[t I]|[N I]] _].
  - rewrite I. constructor; [|constructor]. cbn. apply located_intro with (u := []) (v := []); [rewrite app_nil_r; reflexivity|exact Z].
  - destruct I as (marks & _ & _ & F).
    enough (G : Forall (located (n_original ns)) (map sp_norm (pt_splits pt))).
    { clear -G. induction (pt_splits pt) as [|sp l IH]; [constructor|]. inversion G; subst. constructor; auto. }
    clear -F N Z. revert N. induction F as [|t p ts ps [Hp Ha] _ IH]; intros N; [constructor|]. inversion N as [|? ? N1 N2]; subst.
    constructor; [|auto]. destruct t as [|[c a] r]; [exfalso; apply N1; apply Hp|].
    destruct (part_of_offsets _ _ _ _ _ Hp) as [_ (u & v & Ho & Hs)]. apply located_intro with (u := u) (v := v); [exact Ho|lia].
Qed.

(** Even when the passes also rewrite the normalised text, every split stays
    aligned and is announced at the place of its original text. *)
Theorem C21_inside_any_history : forall s pt,
  inside_history s pt ->
  pt_original pt = s /\
  Forall (fun sp => aligned (sp_norm sp) /\ located s (sp_norm sp) /\
                    fst (offsets_original (sp_norm sp)) <= snd (offsets_original (sp_norm sp)) <= blen s) (pt_splits pt).
Proof.
  intros s pt H. destruct (inside_history_inv s pt H) as [O F]. split; [exact O|].
  rewrite Forall_forall in *. intros sp Hin. destruct (F sp Hin) as (A & u & v & E & Z). split; [exact A|]. split.
  - eapply located_intro; eauto.
  - unfold offsets_original, n_len_original. cbn [fst snd]. rewrite E, !blen_app. lia.
Qed.

(** Splitting on a pattern (any behaviour that keeps the delimiters) only cuts;
    with [Removed] it drops matched characters only. *)
Definition split_on (ms : str -> list ((nat * nat) * bool)) (b : behavior) (_ : nat) (ns : nstring) : res unit (list split) :=
  let! l := n_split ns (ms (n_normalized ns)) b in Ok (map (fun n => mkSplit n None) l).

Theorem C21_pattern_split_only_cuts : forall ms b P,
  (forall s, exists segs, covers_text (ms s) segs s /\
                          (b = Removed -> forall t, In (t, true) segs -> Forall P t)) ->
  only_cuts P (split_on ms b).
Proof.
  intros ms b P H i ns new A E. unfold split_on in E. apply bind_ok in E. destruct E as (l & E & Hn). injection Hn as <-.
  rewrite map_map. cbn [sp_norm]. rewrite map_id. destruct (H (n_normalized ns)) as (segs & C & R).
  destruct (C15_split ns _ segs b A C) as (pieces & csegs & E' & S & M & F). rewrite E in E'. injection E' as <-.
  assert (D : b = Removed \/ b <> Removed) by (destruct b; auto; right; discriminate). destruct D as [->|Hb].
  - exists (map (fun s => (fst s, negb (snd s))) csegs). split; [rewrite map_map; exact S|]. split.
    + intros t Ht. apply in_map_iff in Ht. destruct Ht as ([t' f] & Et & Hin). cbn in Et. injection Et as -> Ef.
      destruct f; [|discriminate]. apply (in_map (fun s => (ctext (fst s), snd s))) in Hin. rewrite M in Hin. cbn in Hin.
      specialize (R eq_refl _ Hin). revert R. clear. unfold ctext. rewrite Forall_map. auto.
    + replace (kept_parts (map _ csegs)) with (spec_split Removed csegs); [exact F|].
      cbn [spec_split]. unfold spec_removed, kept_parts. clear. induction csegs as [|[t f] l IH]; [reflexivity|].
      cbn [map filter fst snd]. destruct f; cbn [negb map fst]; rewrite IH; reflexivity.
  - exists (map (fun t => (t, true)) (spec_split b csegs)). rewrite map_map. cbn [fst]. rewrite map_id.
    assert (K : concat (spec_split b csegs) = concat (map fst csegs)).
    { destruct b; cbn [spec_split]; try congruence.
      - apply concat_isolated.
      - eapply concat_previous; eauto.
      - eapply concat_next; eauto.
      - apply concat_contiguous. }
    rewrite K. split; [exact S|]. split.
    + intros t Ht. apply in_map_iff in Ht. destruct Ht as (x & Hx & _). discriminate.
    + replace (kept_parts (map _ (spec_split b csegs))) with (spec_split b csegs); [exact F|].
      unfold kept_parts. clear. induction (spec_split b csegs) as [|t l IH]; [reflexivity|]. cbn. f_equal. exact IH.
Qed.

Corollary C21_predicate_split : forall p b,
  only_cuts (fun c => b = Removed /\ p c = true) (split_on (pred_find_matches p) b).
Proof.
  intros p b. apply C21_pattern_split_only_cuts. intros s. destruct (C16_predicate p s) as (segs & C & F & _).
  exists segs. split; [exact C|]. intros -> t Ht. apply Forall_forall. intros c Hc. split; [reflexivity|].
  assert (X : In (c, true) (char_flags segs)).
  { unfold char_flags. apply in_flat_map. exists (t, true). split; [exact Ht|]. cbn. apply in_map_iff. exists c. auto. }
  rewrite F in X. apply in_map_iff in X. destruct X as (c' & E & _). injection E as -> E. exact E.
Qed.

Example C21_example :
  exists pt, cut_history (fun c => sp c = true) (nfrom [97; 32; 98; 45; 99]%N) pt /\
    split_texts pt = [[97]; [98]; [45]; [99]]%N /\
    map (fun s => offsets_original (sp_norm s)) (pt_splits pt) = [(0, 1); (2, 3); (3, 4); (4, 5)].
Proof.
  eexists. split; [|split].
  - eapply cut_split with (f := split_on (pred_find_matches (fun c => N.eqb c 45)) Isolated).
    + eapply cut_split with (f := split_on (pred_find_matches sp) Removed); [apply cut_start| |vm_compute; reflexivity].
      intros i ns new A E. destruct (C21_predicate_split sp Removed i ns new A E) as (m & S & D & F).
      exists m. split; [exact S|]. split; [|exact F]. intros t Ht. eapply Forall_impl; [|apply D; exact Ht]. cbn. tauto.
    + intros i ns new A E. destruct (C21_predicate_split _ Isolated i ns new A E) as (m & S & D & F).
      exists m. split; [exact S|]. split; [|exact F]. intros t Ht. eapply Forall_impl; [|apply D; exact Ht]. cbn. intros a [X _]. discriminate.
    + vm_compute. reflexivity.
  - reflexivity.
  - reflexivity.
Qed.

(** ** C22 *)
Definition ready (pt : pretok) : Prop :=
  Forall (fun sp => aligned (sp_norm sp) /\ located (pt_original pt) (sp_norm sp) /\ has_tokens sp = true) (pt_splits pt) /\
  (forall i ns t, In (i, ns, t) (all_tokens 0 (pt_splits pt)) -> token_fits ns t).

Definition is_token_row (w : option N) (ty : N) (x : nat * nstring * token) (r : row) : Prop :=
  let '(i, ns, t) := x in
  r_id r = t_id t /\ r_token r = t_value t /\ r_type r = ty /\
  r_word r = Some (match w with Some y => y | None => N.of_nat i end) /\
  r_special r = 0%N /\ r_attention r = 1%N.

Lemma ready_all pt : ready pt -> forallb has_tokens (pt_splits pt) = true.
Proof. intros [F _]. apply forallb_forall. rewrite Forall_forall in F. intros sp H. apply F. exact H. Qed.

Theorem C22_rows : forall pt w ty,
  ready pt ->
  exists e, into_encoding pt w ty OByte = Ok e /\ parallel e /\ overflowing e = [] /\ sequence_ranges e = [] /\
    Forall2 (fun x r => is_token_row w ty x r /\
               let '(_, ns, t) := x in
               source_range ns t (r_off r) /\
               fst (offsets_original ns) <= fst (r_off r) <= snd (r_off r) /\
               snd (r_off r) <= snd (offsets_original ns) /\
               is_boundary (pt_original pt) (fst (r_off r)) = true /\
               is_boundary (pt_original pt) (snd (r_off r)) = true)
            (all_tokens 0 (pt_splits pt)) (rows e).
Proof.
  intros pt w ty H. rewrite into_encoding_build by (apply ready_all; exact H). cbn [build_rows]. destruct H as [F T].
  destruct (encoding_rows_ok (pt_original pt) w ty _ 0 F T) as (rs & E & H & _). rewrite E. cbn [bind].
  exists (from_rows rs). split; [reflexivity|]. split; [apply from_rows_parallel|]. split; [reflexivity|]. split; [reflexivity|].
  rewrite rows_from_rows. clear -H. induction H as [|[[i ns] t] r l rs (o & -> & G) _ IH]; [constructor|]. cbn [map].
  constructor; [|exact IH]. destruct G as (G1 & G2 & G3 & G4 & G5 & G6). cbn. split; [repeat split; reflexivity|].
  split; [exact G1|]. split; [split; assumption|]. split; [exact G4|]. split; assumption.
Qed.

(** With no offsets asked, only the ids are kept. *)
Theorem C22_no_offsets : forall pt w ty,
  Forall (fun sp => sp_tokens sp <> None) (pt_splits pt) ->
  exists e, into_encoding pt w ty ONone = Ok e /\
    rows e = map (fun x => Row (t_id (snd x)) 0 [] None (0, 0) 0 1) (all_tokens 0 (pt_splits pt)).
Proof.
  intros pt w ty H. rewrite into_encoding_build.
  2: { apply forallb_forall. rewrite Forall_forall in H. intros sp Hs. specialize (H sp Hs). unfold has_tokens. destruct (sp_tokens sp); congruence. }
  cbn [build_rows bind]. eexists. split; [reflexivity|]. rewrite rows_from_rows, map_map. reflexivity.
Qed.

(** It fails exactly when some split has no tokens, and never panics. *)
Theorem C22_fails_iff : forall pt w ty ot,
  (into_encoding pt w ty ot = Err tt <-> exists sp, In sp (pt_splits pt) /\ sp_tokens sp = None) /\
  ((forall sp, In sp (pt_splits pt) -> sp_tokens sp <> None) -> exists e, into_encoding pt w ty ot = Ok e).
Proof.
  intros pt w ty ot. rewrite <- forallb_has_tokens. destruct (forallb has_tokens (pt_splits pt)) eqn:E.
  - rewrite into_encoding_build by exact E. destruct (build_total (pt_original pt) w ty ot _ 0 E) as [r ->]. cbn [bind].
    split; [split; discriminate|eauto].
  - assert (I : into_encoding pt w ty ot = Err tt).
    { unfold into_encoding. rewrite E. destruct (pt_splits pt); [discriminate|reflexivity]. }
    split; [tauto|]. intros H. exfalso. apply forallb_has_tokens in E. destruct E as (sp & H1 & H2). exact (H sp H1 H2).
Qed.

(** Words never go backwards. *)
Theorem C22_words_in_order : forall pt w ty e i j x y,
  ready pt -> into_encoding pt w ty OByte = Ok e -> i <= j ->
  nth_error (words e) i = Some x -> nth_error (words e) j = Some y ->
  exists a b, x = Some a /\ y = Some b /\ (a <= b)%N.
Proof.
  intros pt w ty e i j x y R E Hij Hi Hj. destruct (C22_rows pt w ty R) as (e' & E' & _ & _ & _ & F).
  rewrite E in E'. injection E' as <-.
  assert (W : words e = map r_word (rows e)).
  { rewrite into_encoding_build in E by (apply ready_all; exact R). apply bind_ok in E. destruct E as (r & _ & E). injection E as <-.
    rewrite rows_from_rows, map_map. cbn. apply map_ext. intros [[[[a b] c] d] f]. reflexivity. }
  assert (F2 : Forall2 (fun (x : nat * nstring * token) (r : row) => r_word r = Some (match w with Some y => y | None => N.of_nat (fst (fst x)) end))
                       (all_tokens 0 (pt_splits pt)) (rows e)).
  { eapply Forall2_impl; [|exact F]. intros [[k ns] t] r [H _]. cbn in *. tauto. }
  assert (S : forall l k i j a b, i <= j -> nth_error (all_tokens k l) i = Some a -> nth_error (all_tokens k l) j = Some b ->
              k <= fst (fst a) <= fst (fst b)).
  { clear. induction l as [|sp l IH]; intros k i j a b Hij Hi Hj; cbn [all_tokens] in *; [destruct i; discriminate|].
    set (ts := match sp_tokens sp with Some ts => ts | None => [] end) in *.
    assert (B : forall m z, nth_error (all_tokens (k + 1) l) m = Some z -> k + 1 <= fst (fst z)).
    { intros m z Hm. apply (IH (k + 1) m m z z (le_n m) Hm Hm). }
    assert (A : forall m z, nth_error (map (fun t : token => (k, sp_norm sp, t)) ts) m = Some z -> fst (fst z) = k).
    { intros m z Hm. rewrite nth_error_map in Hm. destruct (nth_error ts m); [|discriminate]. cbn in Hm. injection Hm as <-. reflexivity. }
    destruct (Nat.lt_ge_cases j (length ts)) as [J|J].
    - rewrite nth_error_app1 in Hi by (rewrite map_length; lia). rewrite nth_error_app1 in Hj by (rewrite map_length; lia).
      apply A in Hi, Hj. lia.
    - rewrite nth_error_app2 in Hj by (rewrite map_length; lia). rewrite map_length in Hj.
      destruct (Nat.lt_ge_cases i (length ts)) as [I|I].
      + rewrite nth_error_app1 in Hi by (rewrite map_length; lia). apply A in Hi. apply B in Hj. lia.
      + rewrite nth_error_app2 in Hi by (rewrite map_length; lia). rewrite map_length in Hi.
        pose proof (IH (k + 1) _ _ _ _ (Nat.sub_le_mono_r _ _ (length ts) Hij) Hi Hj). lia. }
  rewrite W, nth_error_map in Hi, Hj. destruct (nth_error (rows e) i) as [ri|] eqn:Ri; [|discriminate].
  destruct (nth_error (rows e) j) as [rj|] eqn:Rj; [|discriminate]. cbn in Hi, Hj. injection Hi as <-. injection Hj as <-.
  assert (G : forall m r, nth_error (rows e) m = Some r -> exists z, nth_error (all_tokens 0 (pt_splits pt)) m = Some z /\
              r_word r = Some (match w with Some y => y | None => N.of_nat (fst (fst z)) end)).
  { clear -F2. induction F2 as [|z r l rs H _ IH]; intros [|m] r' Hm; try discriminate; [|apply IH; exact Hm].
    cbn in Hm. injection Hm as <-. exists z. auto. }
  destruct (G _ _ Ri) as (zi & Zi & ->). destruct (G _ _ Rj) as (zj & Zj & ->). eexists. eexists. split; [reflexivity|]. split; [reflexivity|].
  destruct w; [lia|]. pose proof (S _ _ _ _ _ _ Hij Zi Zj). lia.
Qed.

(** Finding: a token with an empty range inside a split whose text has been
    rewritten is reported at its *normalised* position, which can lie outside
    the original text. *)
Theorem C22_empty_token_outside_refuted :
  exists s ns t e, norm_reachable s ns /\
    snd (t_offsets t) <= n_len ns /\ fst (t_offsets t) = snd (t_offsets t) /\
    into_encoding (mkPre s [mkSplit ns (Some [t])]) None 0 OByte = Ok e /\
    exists a b, offsets e = [(a, b)] /\ blen s < a.
Proof.
  exists [97]%N. eexists. exists (mkTok 7 [120]%N (4, 4)). eexists. split; [|split; [|split; [|split]]].
  - eapply norm_step with (op := MPrepend [120; 120; 120]%N); [apply norm_start|exact I|reflexivity].
  - cbn; lia.
  - reflexivity.
  - reflexivity.
  - exists 4, 4. split; [reflexivity|cbn; lia].
Qed.

Definition sample_pre : pretok :=
  mkPre [104; 233; 32; 8364]%N
    [mkSplit (mkN [104; 233]%N [72; 233]%N [(0, 1); (1, 3); (1, 3)] 0) (Some [mkTok 1 [72]%N (0, 1); mkTok 2 [233]%N (1, 3)]);
     mkSplit (mkN [8364]%N [8364]%N [(0, 3); (0, 3); (0, 3)] 4) (Some [mkTok 3 [8364]%N (0, 3)])].

Lemma sample_ready : ready sample_pre.
Proof.
  split.
  - constructor; [|constructor; [|constructor]]; (split; [|split; [reflexivity|reflexivity]]).
    + apply (show_aligned [104; 233]%N [(72%N, (0, 1)); (233%N, (1, 3))] 0).
      split; [repeat constructor|]. repeat constructor; cbn; lia.
    + apply (show_aligned [8364]%N [(8364%N, (0, 3))] 4). split; [repeat constructor; cbn; lia|]. repeat constructor.
  - cbn. intros i ns t [H|[H|[H|[]]]]; injection H as <- <- <-; unfold token_fits; cbn; lia.
Qed.

Example C22_example :
  exists e, into_encoding sample_pre None 5 OByte = Ok e /\ ready sample_pre /\
    offsets e = [(0, 1); (1, 3); (4, 7)] /\ words e = [Some 0; Some 0; Some 1]%N.
Proof. eexists. split; [reflexivity|]. split; [apply sample_ready|]. split; reflexivity. Qed.

(** ** C23 *)
(** Every reported pair is the pair of character positions of its byte offsets
    (for ranges starting before the end of the text). *)
Theorem C23_convert : forall s b1 b2 i1 i2,
  char_pos s b1 i1 -> char_pos s b2 i2 -> b1 <= b2 -> (b1 < blen s \/ s = []) ->
  exists c, convert_chars s (b1, b2) = Ok c /\ match c with Some o => o | None => (b1, b2) end = (i1, i2).
Proof. exact convert_chars_reported. Qed.

Theorem C23_encoding : forall pt w ty eb,
  ready pt -> into_encoding pt w ty OByte = Ok eb ->
  Forall (fun r => fst (r_off r) < blen (pt_original pt) \/ pt_original pt = []) (rows eb) ->
  exists ec, into_encoding pt w ty OChar = Ok ec /\
    Forall2 (fun rb rc =>
       (r_id rc, r_type rc, r_token rc, r_word rc) = (r_id rb, r_type rb, r_token rb, r_word rb) /\
       (r_special rc, r_attention rc) = (r_special rb, r_attention rb) /\
       char_pos (pt_original pt) (fst (r_off rb)) (fst (r_off rc)) /\
       char_pos (pt_original pt) (snd (r_off rb)) (snd (r_off rc))) (rows eb) (rows ec).
Proof.
  intros pt w ty eb H E B. rewrite into_encoding_build in E by (apply ready_all; exact H).
  rewrite into_encoding_build by (apply ready_all; exact H). cbn [build_rows] in *. destruct H as [F T].
  destruct (encoding_rows_ok (pt_original pt) w ty _ 0 F T) as (rs & E1 & _ & C). rewrite E1 in E. cbn [bind] in E. injection E as <-.
  rewrite rows_from_rows in B. destruct C as (rc & E2 & H2).
  { clear -B. induction rs as [|[[[[a b] c] d] e] rs IH]; [constructor|]. inversion B; subst. constructor; auto. }
  rewrite E2. cbn [bind]. eexists. split; [reflexivity|]. rewrite !rows_from_rows. clear -H2.
  induction H2 as [|[[[[a1 a2] o] a4] a5] [[[[b1 b2] o'] b4] b5] rs rc (X & P1 & P2) _ IH]; [constructor|].
  cbn [map]. constructor; [|exact IH]. cbn. injection X as -> -> -> ->. auto.
Qed.

(** The splits reported by [get_splits] with original offsets, in characters. *)
Theorem C23_get_splits : forall pt,
  Forall (fun s => located (pt_original pt) (sp_norm s) /\
                   (fst (offsets_original (sp_norm s)) < blen (pt_original pt) \/ pt_original pt = [])) (pt_splits pt) ->
  exists l, get_splits pt RefOriginal OChar = Ok l /\
    Forall2 (fun s x => let '(text, o, ts) := x in
       text = n_normalized (sp_norm s) /\ ts = sp_tokens s /\
       char_pos (pt_original pt) (fst (offsets_original (sp_norm s))) (fst o) /\
       char_pos (pt_original pt) (snd (offsets_original (sp_norm s))) (snd o)) (pt_splits pt) l.
Proof.
  intros pt H. unfold get_splits. generalize 0 as off. induction H as [|s l [L B] _ IH]; intros off; cbn [get_splits_loop].
  - exists []. split; [reflexivity|constructor].
  - destruct (IH off) as (r & E & F). destruct (located_shift _ _ L) as (u & v & Eo & Hu).
    assert (P1 : char_pos (pt_original pt) (fst (offsets_original (sp_norm s))) (length u)).
    { exists u, (n_original (sp_norm s) ++ v). cbn. auto. }
    assert (P2 : char_pos (pt_original pt) (snd (offsets_original (sp_norm s))) (length u + length (n_original (sp_norm s)))).
    { exists (u ++ n_original (sp_norm s)), v. rewrite blen_app, app_length, <- app_assoc. cbn. unfold n_len_original. split; [exact Eo|]. split; [lia|reflexivity]. }
    destruct (offsets_original (sp_norm s)) as [b1 b2] eqn:Eb. cbn [fst snd] in *.
    assert (Hle : b1 <= b2) by (unfold offsets_original in Eb; injection Eb; lia).
    destruct (convert_chars_reported _ _ _ _ _ P1 P2 Hle B) as (c & E1 & E2). rewrite E1. cbn [bind]. rewrite E. cbn [bind].
    eexists. split; [reflexivity|]. constructor; [|exact F]. rewrite E2. cbn [fst snd]. rewrite Eb. cbn [fst snd]. auto.
Qed.

(** In bytes, the splits have their own original offsets, or consecutive ranges
    of the normalised text: each starts where the texts before it end. *)
Theorem C23_get_splits_bytes : forall pt ot, ot <> OChar ->
  (exists l, get_splits pt RefOriginal ot = Ok l /\
     l = map (fun s => (n_normalized (sp_norm s), offsets_original (sp_norm s), sp_tokens s)) (pt_splits pt)) /\
  (exists l, get_splits pt RefNormalized ot = Ok l /\ length l = length (pt_splits pt) /\
     forall before s after, pt_splits pt = before ++ s :: after ->
       nth_error l (length before) =
         Some (n_normalized (sp_norm s),
               (list_sum (map (fun s => blen (n_normalized (sp_norm s))) before),
                list_sum (map (fun s => blen (n_normalized (sp_norm s))) before) + blen (n_normalized (sp_norm s))), sp_tokens s)).
Proof.
  intros pt ot NC. unfold get_splits. replace (match ot with OChar => true | _ => false end) with false by (destruct ot; congruence). split.
  - exists (map (fun s => (n_normalized (sp_norm s), offsets_original (sp_norm s), sp_tokens s)) (pt_splits pt)). split; [|reflexivity].
    generalize 0. induction (pt_splits pt) as [|s l IH]; intros off; cbn [get_splits_loop map]; [reflexivity|]. cbn [bind]. rewrite IH. reflexivity.
  - enough (G : forall splits off, exists l, get_splits_loop (pt_original pt) RefNormalized false off splits = Ok l /\ length l = length splits /\
      forall before s after, splits = before ++ s :: after ->
       nth_error l (length before) =
         Some (n_normalized (sp_norm s),
               (off + list_sum (map (fun s => blen (n_normalized (sp_norm s))) before),
                off + list_sum (map (fun s => blen (n_normalized (sp_norm s))) before) + blen (n_normalized (sp_norm s))), sp_tokens s)) by apply (G _ 0).
    induction splits as [|s l IH]; intros off; cbn [get_splits_loop].
    + exists []. split; [reflexivity|]. split; [reflexivity|]. intros [|] ? ? E; discriminate.
    + destruct (IH (off + n_len (sp_norm s))) as (r & E & L & N). cbn [bind]. rewrite E. cbn [bind]. eexists. split; [reflexivity|].
      split; [cbn; lia|]. intros [|b before] u after EQ; cbn [app] in EQ; injection EQ as -> EQ.
      * cbn [length nth_error map]. unfold list_sum. cbn [fold_right]. rewrite Nat.add_0_r. reflexivity.
      * cbn [length nth_error map]. rewrite (N _ _ _ EQ). unfold n_len, list_sum. cbn [fold_right]. rewrite !Nat.add_assoc. reflexivity.
Qed.

(** Finding: an empty range at the very end of the text is left in bytes. *)
Theorem C23_end_of_text_refuted :
  exists s t e, into_encoding (mkPre s [mkSplit (nfrom s) (Some [t])]) None 0 OChar = Ok e /\
    t_offsets t = (blen s, blen s) /\
    exists a b, offsets e = [(a, b)] /\ ~ char_pos s (blen s) a.
Proof.
  exists [233]%N, (mkTok 7 [] (2, 2)). eexists. split; [reflexivity|]. split; [reflexivity|].
  exists 2, 2. split; [reflexivity|]. intros (p & q & E & H1 & H2). apply (f_equal (@length N)) in E.
  rewrite app_length in E. cbn in E. lia.
Qed.

(** Finding: normalised offsets are converted with the positions of the
    *original* text, so they are not character positions of anything. *)
Theorem C23_normalized_char_offsets_refuted :
  exists s ns l, norm_reachable s ns /\
    get_splits (pre_from_norm ns) RefNormalized OChar = Ok l /\
    forall text a b ts, In (text, (a, b), ts) l -> ~ char_pos (n_normalized ns) (blen (n_normalized ns)) b.
Proof.
  exists [233; 98]%N. eexists. eexists. split; [|split].
  - eapply norm_step with (op := MMap (fun c => if N.eqb c 233 then 101%N else c)); [apply norm_start|exact I|reflexivity].
  - reflexivity.
  - cbn. intros text a b ts [H|[]]. injection H as <- <- <- <-. intros (p & q & E & H1 & H2).
    apply (f_equal blen) in E as E2. rewrite blen_app in E2. cbn in E2, H1. assert (blen q = 0) by lia.
    apply blen_0 in H. subst q. rewrite app_nil_r in E. subst p. discriminate.
Qed.

Example C23_example :
  exists e, into_encoding sample_pre None 5 OChar = Ok e /\ offsets e = [(0, 1); (1, 2); (3, 4)].
Proof. eexists. split; reflexivity. Qed.

(** ** C24 *)
Definition limited_prefix {A} (d : direction) (max : nat) (part all : list A) : Prop :=
  (exists k, part = kept d k all) /\ (part = all \/ max <= length part).

Lemma firstn_same {A} k m (l : list A) : (firstn k l = l \/ m <= length (firstn k l)) -> firstn m (firstn k l) = firstn m l.
Proof.
  intros [->|H]; [reflexivity|]. rewrite firstn_firstn. rewrite firstn_length in H. f_equal. lia.
Qed.

Theorem C24_right : forall E (f : nstring -> res E (list token)) max pt full w ty ot e,
  pt_tokenize f pt = Ok full -> into_encoding full w ty ot = Ok e ->
  exists lim el,
    pt_tokenize_with_limit f max DRight pt = Ok lim /\ into_encoding lim w ty ot = Ok el /\
    limited_prefix DRight max (rows el) (rows e) /\
    kept DRight max (rows el) = kept DRight max (rows e) /\
    (forall stride e', truncate e max stride DRight = Ok e' ->
       exists el', truncate el max stride DRight = Ok el' /\ rows el' = rows e').
Proof.
  intros E f mx pt full w ty ot e Hf He. unfold pt_tokenize in Hf. apply bind_ok in Hf. destruct Hf as (l & Hl & Hf). injection Hf as <-.
  destruct (limit_loop_prefix f mx _ 0 _ Hl) as (n & Hn & El & D). cbn [Nat.add] in D.
  pose proof (tokenized_all _ _ _ Hl) as All.
  assert (All' : forallb has_tokens (firstn n l) = true).
  { rewrite <- (firstn_skipn n l), forallb_app in All. apply andb_prop in All. tauto. }
  rewrite into_encoding_build in He by exact All. cbn [pt_original pt_splits] in He. apply bind_ok in He. destruct He as (r & Hr & He). injection He as <-.
  rewrite <- (firstn_skipn n l) in Hr. destruct (build_app _ _ _ _ _ _ _ _ Hr) as (ra & rb & Ha & Hb & ->).
  exists (mkPre (pt_original pt) (firstn n l)), (from_rows ra). split; [unfold pt_tokenize_with_limit; rewrite El; reflexivity|].
  split; [rewrite into_encoding_build by exact All'; cbn [pt_original pt_splits]; rewrite Ha; reflexivity|].
  rewrite !rows_from_rows, map_app.
  assert (K : rb = [] \/ mx <= length ra).
  { destruct D as [->|D]; [left|right].
    - rewrite skipn_all in Hb. pose proof (build_len _ _ _ _ _ _ _ Hb) as L. destruct rb; [reflexivity|discriminate].
    - rewrite (build_len _ _ _ _ _ _ _ Ha). exact D. }
  assert (KK : kept DRight mx (map to_row ra) = kept DRight mx (map to_row ra ++ map to_row rb)).
  { cbn [kept]. destruct K as [->|K]; [rewrite app_nil_r; reflexivity|]. rewrite firstn_app, map_length.
    replace (mx - length ra) with 0 by lia. rewrite firstn_O, app_nil_r. reflexivity. }
  split; [|split; [exact KK|]].
  - split.
    + exists (length ra). cbn [kept]. rewrite <- (map_length to_row ra), firstn_app, Nat.sub_diag, firstn_O, app_nil_r, firstn_all. reflexivity.
    + destruct K as [->|K]; [left; rewrite app_nil_r; reflexivity|right; rewrite map_length; exact K].
  - intros stride e' Ht. pose proof (from_rows_parallel (ra ++ rb)) as [P1 _]. pose proof (from_rows_parallel ra) as [P2 _].
    destruct (truncate_rows _ _ _ _ _ P1 Ht) as [R1 _].
    destruct (truncate (from_rows ra) mx stride DRight) as [el'|x|] eqn:T.
    + exists el'. split; [reflexivity|]. destruct (truncate_rows _ _ _ _ _ P2 T) as [R2 _]. rewrite R1, R2, !rows_from_rows, map_app. exact KK.
    + apply truncate_no_err in T. destruct T.
    + exfalso. apply truncate_panic_iff in T; [|exact P2]. destruct T as (T1 & T2 & T3).
      assert (X : truncate (from_rows (ra ++ rb)) mx stride DRight = Panic); [|congruence].
      apply truncate_panic_iff; [exact P1|]. split; [exact T1|]. split; [|exact T3].
      unfold enc_len, from_rows in T2 |- *. cbn [ids] in T2 |- *. rewrite map_length in T2. rewrite map_length, app_length. eapply Nat.lt_le_trans; [exact T2|apply Nat.le_add_r].
Qed.

(** From the left: the same rows, except that words are numbered from the first
    split that was tokenised (unless a word index is given). *)
Theorem C24_left : forall E (f : nstring -> res E (list token)) max pt full w ty ot e,
  pt_tokenize f pt = Ok full -> into_encoding full w ty ot = Ok e ->
  exists lim el,
    pt_tokenize_with_limit f max DLeft pt = Ok lim /\ into_encoding lim w ty ot = Ok el /\
    limited_prefix DLeft max (map no_word (rows el)) (map no_word (rows e)) /\
    kept DLeft max (map no_word (rows el)) = kept DLeft max (map no_word (rows e)) /\
    (w <> None -> kept DLeft max (rows el) = kept DLeft max (rows e)) /\
    (forall stride e', truncate e max stride DLeft = Ok e' ->
       exists el', truncate el max stride DLeft = Ok el' /\ map no_word (rows el') = map no_word (rows e') /\
                   (w <> None -> rows el' = rows e')).
Proof.
  intros E f mx pt full w ty ot e Hf He. unfold pt_tokenize in Hf. apply bind_ok in Hf. destruct Hf as (l & Hl & Hf). injection Hf as <-.
  destruct (limit_loop_prefix f mx _ 0 _ (map_res_rev _ _ _ Hl)) as (n & Hn & El & D). cbn [Nat.add] in D.
  pose proof (tokenized_all _ _ _ Hl) as All. rewrite rev_length in *.
  set (m := length l - n). assert (Er : rev (firstn n (rev l)) = skipn m l).
  { rewrite firstn_rev, rev_involutive. reflexivity. }
  assert (All' : forallb has_tokens (skipn m l) = true).
  { rewrite <- (firstn_skipn m l), forallb_app in All. apply andb_prop in All. tauto. }
  rewrite into_encoding_build in He by exact All. cbn [pt_original pt_splits] in He. apply bind_ok in He. destruct He as (r & Hr & He). injection He as <-.
  rewrite <- (firstn_skipn m l) in Hr. destruct (build_app _ _ _ _ _ _ _ _ Hr) as (rb & ra & Hb & Ha & ->).
  destruct (build_reindex _ _ _ _ _ _ 0 _ Ha) as (ra' & Ha' & Hs & Hw).
  exists (mkPre (pt_original pt) (skipn m l)), (from_rows ra').
  split; [unfold pt_tokenize_with_limit; rewrite El; cbn [bind]; rewrite Er; reflexivity|].
  split; [rewrite into_encoding_build by exact All'; cbn [pt_original pt_splits]; rewrite Ha'; reflexivity|].
  rewrite !rows_from_rows, map_app.
  assert (Ln : length ra' = length ra) by (rewrite <- (map_length strip_word ra), Hs, map_length; reflexivity).
  assert (K : rb = [] \/ mx <= length ra).
  { destruct D as [->|D]; [left|right].
    - unfold m in Hb. rewrite Nat.sub_diag in Hb. cbn [firstn] in Hb.
      pose proof (build_len _ _ _ _ _ _ _ Hb) as L. destruct rb; [reflexivity|discriminate].
    - rewrite <- (number_rev), Er in D. rewrite (build_len _ _ _ _ _ _ _ Ha). exact D. }
  assert (KL : forall (B : Type) (g : enc_row -> B) (x : list enc_row), length x = length ra -> map g x = map g ra ->
               kept DLeft mx (map g x) = kept DLeft mx (map g rb ++ map g ra)).
  { intros B g x Lx Ex. rewrite Ex. cbn [kept]. rewrite app_length, !map_length. destruct K as [->|K]; [reflexivity|].
    rewrite skipn_app, map_length. rewrite (skipn_all2 (map g rb)) by (rewrite map_length; lia). cbn [app]. f_equal. lia. }
  assert (NW : forall x y, map strip_word x = map strip_word y -> map (fun r => no_word (to_row r)) x = map (fun r => no_word (to_row r)) y).
  { intros x y Hxy. rewrite (map_ext _ _ no_word_strip x), (map_ext _ _ no_word_strip y). rewrite <- !(map_map strip_word to_row). congruence. }
  rewrite map_app, !map_map.
  assert (K1 := KL _ (fun r => no_word (to_row r)) ra' Ln (NW _ _ (eq_sym Hs))).
  split; [|split; [exact K1|split]].
  - split.
    + exists (length ra). cbn [kept]. rewrite app_length, !map_length, skipn_app, map_length.
      rewrite (skipn_all2 (map _ rb)) by (rewrite map_length; lia). cbn [app].
      replace (length rb + length ra - length ra - length rb) with 0 by lia. apply NW. auto.
    + destruct K as [->|K]; [left; cbn [map app]; apply NW; auto|right; rewrite map_length; lia].
  - intros Hn'. rewrite <- (Hw Hn'). apply KL; reflexivity.
  - intros stride e' Ht. pose proof (from_rows_parallel (rb ++ ra)) as [P1 _]. pose proof (from_rows_parallel ra') as [P2 _].
    destruct (truncate_rows _ _ _ _ _ P1 Ht) as [R1 _].
    destruct (truncate (from_rows ra') mx stride DLeft) as [el'|x|] eqn:T.
    + exists el'. split; [reflexivity|]. destruct (truncate_rows _ _ _ _ _ P2 T) as [R2 _]. rewrite R1, R2, !rows_from_rows, map_app. split.
      * cbn [kept] in *. rewrite !skipn_map', !app_length, !map_length, map_app, !map_map in *. rewrite <- K1. do 2 f_equal.
      * intros Hn'. rewrite <- (Hw Hn'). apply KL; reflexivity.
    + apply truncate_no_err in T. destruct T.
    + exfalso. apply truncate_panic_iff in T; [|exact P2]. destruct T as (T1 & T2 & T3).
      assert (X : truncate (from_rows (rb ++ ra)) mx stride DLeft = Panic); [|congruence].
      apply truncate_panic_iff; [exact P1|]. split; [exact T1|]. split; [|exact T3].
      unfold enc_len, from_rows in T2 |- *. cbn [ids] in T2 |- *. rewrite map_length in T2. rewrite map_length, app_length. eapply Nat.lt_le_trans; [exact T2|]. unfold enc_row in Ln. rewrite Ln. apply Nat.le_add_l.
Qed.

(** Finding: truncating from the left changes the word numbers. *)
Definition one_token (ns : nstring) : res unit (list token) := Ok [mkTok 1 (n_normalized ns) (0, n_len ns)].

Theorem C24_left_word_ids_refuted :
  exists pt full lim e el,
    pt_tokenize one_token pt = Ok full /\ pt_tokenize_with_limit one_token 1 DLeft pt = Ok lim /\
    into_encoding full None 0 OByte = Ok e /\ into_encoding lim None 0 OByte = Ok el /\
    kept DLeft 1 (words e) <> kept DLeft 1 (words el).
Proof.
  exists (mkPre [97; 98]%N [mkSplit (nfrom [97]%N) None; mkSplit (mkN [98]%N [98]%N [(0, 1)] 1) None]).
  do 4 eexists. do 4 (split; [reflexivity|]). vm_compute. discriminate.
Qed.

Example C24_example :
  let pt := mkPre [97; 98; 99]%N [mkSplit (nfrom [97]%N) None; mkSplit (mkN [98]%N [98]%N [(0, 1)] 1) None; mkSplit (mkN [99]%N [99]%N [(0, 1)] 2) None] in
  exists lim e, pt_tokenize_with_limit one_token 2 DRight pt = Ok lim /\ into_encoding lim None 0 OByte = Ok e /\
    offsets e = [(0, 1); (1, 2)] /\ length (pt_splits lim) = 2.
Proof. eexists. eexists. split; [reflexivity|]. split; [reflexivity|]. split; reflexivity. Qed.
