(** Proofs about decoders: text replacement, byte fallback, CTC, Strip. *)
From Verif Require Import Base ListFacts StrBytes Utf8 PatternModel PatternSpec PatternProofs NormModel EncodingModel BpeModel ByteLevelModel
  DecodersModel DecodersSpec.

(** ** Replacement *)
Definition fill (rep : str) (segs : list (str * bool)) : str := concat (map (fun sg : str * bool => if snd sg then rep else fst sg) segs).

Lemma replace_scan_skip pat rep m : forall s, replace_scan pat rep (length m) (m ++ s) = replace_scan pat rep 0 s.
Proof. induction m as [|c m IH]; intros s; cbn [length app replace_scan]; auto. Qed.

Lemma replace_scan_segs pat rep : pat <> [] -> forall n s g, length s <= n -> fill rep (lit_segs pat g 0 s) = g ++ replace_scan pat rep 0 s.
Proof.
  intros Hp. induction n as [|n IH]; intros s g Hn.
  - destruct s; [|cbn in Hn; lia]. cbn [lit_segs replace_scan]. destruct g; cbn; rewrite ?app_nil_r; reflexivity.
  - destruct s as [|c s]; [cbn [lit_segs replace_scan]; destruct g; cbn; rewrite ?app_nil_r; reflexivity|].
    cbn [lit_segs replace_scan]. cbn [length] in Hn. destruct (is_prefix pat (c :: s)) eqn:E.
    + apply is_prefix_spec in E. destruct E as [w E]. destruct pat as [|p0 pat]; [congruence|]. cbn [app] in E. injection E as -> ->.
      cbn [length]. replace (S (length pat) - 1) with (length pat) by lia. rewrite lit_segs_skip, replace_scan_skip.
      assert (L : length w <= n) by (rewrite app_length in Hn; lia). pose proof (IH w [] L) as I. cbn [app] in I.
      unfold fill in *. rewrite map_app, concat_app. cbn [map snd fst concat]. rewrite I. destruct g; cbn; rewrite ?app_nil_r; reflexivity.
    + rewrite IH by lia. rewrite <- app_assoc. reflexivity.
Qed.

Lemma str_replace_spec pat rep s : pat <> [] -> replaced pat rep s (str_replace pat rep s).
Proof.
  intros Hp. unfold str_replace. destruct pat as [|p0 pat'] eqn:Epat; [congruence|]. cbn [is_nil]. rewrite <- Epat in *. clear Epat p0 pat'.
  exists (lit_segs pat [] 0 s). destruct (regex_literal pat Hp (length s) s [] 0 (le_n _)) as (_ & A & B & _). split; [rewrite A; reflexivity|]. split.
  - apply B. intros u v w E Hv. destruct u, v; cbn in E; congruence.
  - symmetry. exact (replace_scan_segs pat rep Hp (length s) s [] (le_n _)).
Qed.

Lemma replaced_all_spec rules s : Forall (fun r => fst r <> []) rules ->
  replaced_all rules s (fold_left (fun s r => str_replace (fst r) (snd r) s) rules s).
Proof.
  intros F. revert s. induction F as [|[p r] l H _ IH]; intros s; cbn [replaced_all fold_left]; [reflexivity|].
  eexists. split; [apply str_replace_spec; exact H|apply IH].
Qed.

Lemma cleanup_spec s : replaced_all clean_rules s (wp_cleanup s).
Proof. apply (replaced_all_spec cleanup_rules). repeat constructor; discriminate. Qed.

(** Replacement of a literal that does not occur; of the whole text. *)
Lemma replace_scan_absent pat rep s : pat <> [] -> ~ occurs pat s -> replace_scan pat rep 0 s = s.
Proof.
  intros Hp. induction s as [|c s IH]; intros N; [reflexivity|]. cbn [replace_scan].
  destruct (is_prefix pat (c :: s)) eqn:E.
  - apply is_prefix_spec in E. destruct E as [w E]. exfalso. apply N. exists [], w. exact E.
  - rewrite IH; [reflexivity|]. intros (u & v & ->). apply N. exists (c :: u), v. reflexivity.
Qed.
Lemma str_replace_absent pat rep s : pat <> [] -> ~ occurs pat s -> str_replace pat rep s = s.
Proof. intros Hp N. unfold str_replace. destruct pat; [congruence|]. cbn [is_nil]. apply replace_scan_absent; assumption. Qed.
Lemma str_replace_whole pat rep : pat <> [] -> str_replace pat rep pat = rep.
Proof.
  intros Hp. unfold str_replace. destruct pat as [|c p]; [congruence|]. cbn [is_nil replace_scan].
  replace (is_prefix (c :: p) (c :: p)) with true by (symmetry; apply is_prefix_spec; exists []; rewrite app_nil_r; reflexivity).
  cbn [length]. replace (S (length p) - 1) with (length p) by lia. pose proof (replace_scan_skip (c :: p) rep p []) as H. rewrite app_nil_r in H. rewrite H. apply app_nil_r.
Qed.

(** ** Byte fallback *)
Lemma hex_value_spec c x : hex_value c = Some x <-> hex_of c x.
Proof.
  unfold hex_value. split.
  - destruct (N.leb 48 c && N.leb c 57)%bool eqn:E1.
    { intros H. injection H as <-. replace c with (48 + (c - 48))%N at 1 by lia. apply hex_num. lia. }
    destruct (N.leb 65 c && N.leb c 70)%bool eqn:E2.
    { intros H. injection H as <-. replace c with (55 + (c - 55))%N at 1 by lia. apply hex_upper. lia. }
    destruct (N.leb 97 c && N.leb c 102)%bool eqn:E3; [|discriminate].
    intros H. injection H as <-. replace c with (87 + (c - 87))%N at 1 by lia. apply hex_lower. lia.
  - intros [d H|d H|d H].
    + replace (N.leb 48 (48 + d) && N.leb (48 + d) 57)%bool with true by lia. f_equal. lia.
    + replace (N.leb 48 (55 + d) && N.leb (55 + d) 57)%bool with false by lia.
      replace (N.leb 65 (55 + d) && N.leb (55 + d) 70)%bool with true by lia. f_equal. lia.
    + replace (N.leb 48 (87 + d) && N.leb (87 + d) 57)%bool with false by lia.
      replace (N.leb 65 (87 + d) && N.leb (87 + d) 70)%bool with false by lia.
      replace (N.leb 97 (87 + d) && N.leb (87 + d) 102)%bool with true by lia. f_equal. lia.
Qed.

Lemma hex_of_range c x : hex_of c x -> (48 <= c < 128 /\ x < 16)%N.
Proof. intros [d H|d H|d H]; lia. Qed.

(** The tests of the code on a token: the three first bytes, two more, the last. *)
Lemma byte_shape t : (blen t =? 6) && is_prefix [60; 48; 120]%N t && (match rev t with c :: _ => N.eqb c 62 | [] => false end) = true ->
  exists m, t = [60; 48; 120]%N ++ m ++ [62]%N /\ blen m = 2.
Proof.
  intros H. apply andb_true_iff in H. destruct H as [H H3]. apply andb_true_iff in H. destruct H as [H1 H2].
  apply is_prefix_spec in H2. destruct H2 as [w ->]. apply Nat.eqb_eq in H1. rewrite blen_app in H1. change (blen [60; 48; 120]%N) with 3 in H1.
  destruct w as [|c m] using rev_ind; [cbn in H1; lia|]. rewrite app_assoc, rev_app_distr in H3. cbn [rev app] in H3. apply N.eqb_eq in H3. subst c.
  exists m. split; [reflexivity|]. rewrite blen_app in H1. change (blen [62]%N) with 1 in H1. lia.
Qed.

Lemma byte_of_token_spec {E} t : exists o, @byte_of_token E t = Ok o /\ forall b, o = Some b <-> byte_like t b.
Proof.
  unfold byte_of_token. destruct (_ && _) eqn:H.
  - apply byte_shape in H. destruct H as (m & -> & Hm).
    rewrite (str_get_app' [60; 48; 120]%N m [62]%N 3 5) by (change (blen [60; 48; 120]%N) with 3; lia).
    cbn [of_option bind]. exists (radix16 m). split; [reflexivity|]. intros b.
    unfold radix16. destruct m as [|h [|l [|x m]]].
    + cbn in Hm. lia.
    + split; [discriminate|]. intros H. cbn [app] in H. inversion H.
    + destruct (N.eqb_spec h 43) as [->|Nh].
      * rewrite hex_value_spec. split; [intros H; apply byte_plus; exact H|]. intros H. cbn [app] in H. inversion H as [h0 l0 x y Hh Hl|l0 y Hl]; subst; [|exact Hl].
        apply hex_of_range in Hh. lia.
      * split.
        -- destruct (hex_value h) as [x|] eqn:Eh; [|discriminate]. destruct (hex_value l) as [y|] eqn:El; [|discriminate]. intros H. injection H as <-.
           apply hex_value_spec in Eh, El. apply byte_two; assumption.
        -- intros H. cbn [app] in H. inversion H as [h0 l0 x y Hh Hl|l0 y Hl]; subst; [|congruence].
           apply hex_value_spec in Hh, Hl. rewrite Hh, Hl. reflexivity.
    + split; [discriminate|]. intros H. cbn [app] in H. inversion H; subst; destruct m; discriminate.
  - exists None. split; [reflexivity|]. intros b. split; [discriminate|]. intros B. exfalso.
    assert (T : (blen t =? 6) && is_prefix [60; 48; 120]%N t && (match rev t with c :: _ => N.eqb c 62 | [] => false end) = true).
    { destruct B as [h l x y Hh Hl|l y Hl].
      - apply hex_of_range in Hh, Hl. cbn [rev app blen is_prefix]. unfold len_utf8. replace (N.ltb h 128) with true by lia. replace (N.ltb l 128) with true by lia. reflexivity.
      - apply hex_of_range in Hl. cbn [rev app blen is_prefix]. unfold len_utf8. replace (N.ltb l 128) with true by lia. reflexivity. }
    congruence.
Qed.

Lemma byte_like_fun t b b' : byte_like t b -> byte_like t b' -> b = b'.
Proof.
  intros H H'. destruct (@byte_of_token_spec unit t) as (o & _ & S). apply S in H, H'. congruence.
Qed.

Lemma byte_like_token b : (b < 256)%N -> byte_like (byte_token b) b.
Proof.
  intros H. unfold byte_token. pose proof (N.mod_lt b 16 ltac:(lia)) as M. pose proof (N.div_mod b 16 ltac:(lia)) as D.
  assert (Q : (b / 16 < 16)%N) by (apply N.div_lt_upper_bound; lia).
  rewrite D at 3. rewrite (N.mul_comm 16). unfold hex_digit.
  apply byte_two.
  - destruct (N.ltb_spec (b / 16) 10); [apply hex_num|apply hex_upper]; lia.
  - destruct (N.ltb_spec (b mod 16) 10); [apply hex_num|apply hex_upper]; lia.
Qed.

Lemma flush_spec bs : bs <> [] -> run_text bs (flush_bytes bs).
Proof.
  intros N. unfold flush_bytes. destruct bs as [|b bs]; [congruence|]. cbn [is_nil]. destruct (from_utf8 (b :: bs)) as [s|] eqn:E.
  - apply from_utf8_inv in E. destruct E as [E F]. apply run_valid; assumption.
  - apply run_invalid. intros s T Es. rewrite <- Es in E. rewrite (from_utf8_encode s T) in E. discriminate.
Qed.
Lemma run_text_fun bs o : bs <> [] -> run_text bs o -> o = flush_bytes bs.
Proof.
  intros N H. unfold flush_bytes. destruct bs as [|b bs]; [congruence|]. cbn [is_nil]. destruct H as [s T E|H].
  - rewrite <- E. rewrite (from_utf8_encode s T). reflexivity.
  - destruct (from_utf8 (b :: bs)) as [s|] eqn:E; [|reflexivity]. apply from_utf8_inv in E. destruct E as [E F]. exfalso. exact (H s F E).
Qed.

Lemma fallback_loop_run {E} : forall ts bs rest prev, Forall2 byte_like ts bs ->
  @fallback_loop E (ts ++ rest) prev = fallback_loop rest (prev ++ bs).
Proof.
  induction ts as [|t ts IH]; intros bs rest prev F; inversion F as [|? b ? bs' B F']; subst; [rewrite app_nil_r; reflexivity|].
  cbn [app fallback_loop]. destruct (@byte_of_token_spec E t) as (o & -> & S). cbn [bind]. apply S in B. rewrite B.
  rewrite (IH bs' rest _ F'), <- app_assoc. reflexivity.
Qed.
Lemma fallback_flush {E} rest prev : starts_plain rest ->
  @fallback_loop E rest prev = (let! out := fallback_loop rest [] in Ok (flush_bytes prev ++ out)).
Proof.
  destruct rest as [|t rest]; intros P; cbn [fallback_loop].
  - cbn [bind flush_bytes is_nil]. rewrite app_nil_r. reflexivity.
  - destruct (@byte_of_token_spec E t) as (o & -> & S). cbn [bind]. destruct o as [b|].
    + exfalso. apply (P b). apply S. reflexivity.
    + destruct (fallback_loop rest []); reflexivity.
Qed.

Lemma fallback_total {E} : forall n tokens, length tokens <= n -> exists out, @fallback_decode E tokens = Ok out /\ fallback_text tokens out.
Proof.
  induction n as [|n IH]; intros tokens L.
  - destruct tokens; [|cbn in L; lia]. exists []. split; [reflexivity|constructor].
  - destruct tokens as [|t rest]; [exists []; split; [reflexivity|constructor]|].
    (* the longest run of byte tokens in front *)
    assert (R : forall l, exists ts bs r, l = ts ++ r /\ Forall2 byte_like ts bs /\ starts_plain r).
    { clear. induction l as [|t l (ts & bs & r & -> & F & P)]; [exists [], [], []; repeat split; constructor|].
      destruct (@byte_of_token_spec unit t) as ([b|] & _ & S).
      - exists (t :: ts), (b :: bs), r. split; [reflexivity|]. split; [constructor; [apply S; reflexivity|exact F]|exact P].
      - exists [], [], (t :: ts ++ r). split; [reflexivity|]. split; [constructor|]. intros b B. apply S in B. discriminate. }
    destruct (R (t :: rest)) as (ts & bs & r & El & F & P). destruct ts as [|t0 ts].
    + cbn [app] in El. subst r. inversion F; subst. destruct (IH rest ltac:(cbn in L; lia)) as (out & E1 & E2). exists (t :: out). split.
      * unfold fallback_decode in *. cbn [fallback_loop]. destruct (@byte_of_token_spec E t) as (o & -> & S). cbn [bind]. destruct o as [b|].
        { exfalso. apply (P b). apply S. reflexivity. }
        rewrite E1. reflexivity.
      * apply ft_plain; assumption.
    + rewrite El in *. destruct (IH r) as (out & E1 & E2); [cbn [app length] in L; rewrite app_length in L; lia|].
      assert (N : bs <> []) by (inversion F; discriminate).
      exists (flush_bytes bs ++ out). split.
      * unfold fallback_decode in *. rewrite (fallback_loop_run _ _ _ _ F). cbn [app]. rewrite fallback_flush by exact P. rewrite E1. reflexivity.
      * eapply ft_run; [discriminate|exact F|exact P|apply flush_spec; exact N|exact E2].
Qed.

Lemma fallback_text_decode {E} tokens out : fallback_text tokens out -> @fallback_decode E tokens = Ok out.
Proof.
  induction 1 as [|t rest out N _ IH|ts bs rest o out N F P R _ IH].
  - reflexivity.
  - unfold fallback_decode in *. cbn [fallback_loop]. destruct (@byte_of_token_spec E t) as (o & -> & S). cbn [bind]. destruct o as [b|].
    { exfalso. apply (N b). apply S. reflexivity. }
    rewrite IH. reflexivity.
  - unfold fallback_decode in *. rewrite (fallback_loop_run _ _ _ _ F). cbn [app]. rewrite fallback_flush by exact P. rewrite IH. cbn [bind].
    rewrite (run_text_fun bs o); [reflexivity| |exact R]. destruct F; [congruence|discriminate].
Qed.

(** ** CTC *)
Lemma dedup_cons x l : dedup (x :: l) = match l with [] => [x] | y :: _ => if str_eqb x y then dedup l else x :: dedup l end.
Proof. reflexivity. Qed.

Lemma runs_exist l : exists runs, runs_of l runs /\ dedup l = map fst runs.
Proof.
  induction l as [|x l (runs & [-> N] & D)]; [exists []; repeat split|].
  destruct runs as [|[y n] runs].
  - cbn [unroll flat_map] in *. exists [(x, 0)]. split; [split; [reflexivity|exact I]|reflexivity].
  - rewrite dedup_cons. destruct (list_eq_dec N.eq_dec x y) as [->|Nxy].
    + exists ((y, S n) :: runs). split; [split; [reflexivity|exact N]|]. cbn [unroll flat_map fst snd repeat app]. rewrite str_eqb_refl. exact D.
    + exists ((x, 0) :: (y, n) :: runs). split.
      * split; [reflexivity|]. cbn [map fst no_repeat] in *. split; [exact Nxy|exact N].
      * cbn [unroll flat_map fst snd repeat app]. unfold str_eqb at 1. destruct (list_eq_dec N.eq_dec x y); [congruence|]. cbn [map fst]. apply (f_equal (cons x)). exact D.
Qed.

Lemma no_repeat_tail x l : no_repeat (x :: l) -> no_repeat l.
Proof. destruct l; cbn; tauto. Qed.

(** Runs are unique. *)
Lemma dedup_repeat x n r : dedup (repeat x (S n) ++ r) = match r with [] => [x] | y :: _ => if str_eqb x y then dedup r else x :: dedup r end.
Proof.
  induction n as [|n IH]; [reflexivity|]. change (repeat x (S (S n)) ++ r) with (x :: repeat x (S n) ++ r). rewrite dedup_cons.
  cbn [repeat app] in *. rewrite str_eqb_refl. exact IH.
Qed.
Lemma dedup_runs runs : no_repeat (map fst runs) -> dedup (unroll runs) = map fst runs.
Proof.
  induction runs as [|[x n] runs IH]; intros N; [reflexivity|]. cbn [unroll flat_map fst snd]. rewrite dedup_repeat.
  change (flat_map (fun r : str * nat => repeat (fst r) (S (snd r))) runs) with (unroll runs). pose proof (IH (no_repeat_tail _ _ N)) as E.
  destruct runs as [|[y k] runs]; [reflexivity|]. cbn [map fst no_repeat] in N. destruct N as [Nxy _].
  rewrite E. cbn [unroll flat_map fst snd repeat app]. unfold str_eqb. destruct (list_eq_dec N.eq_dec x y); [congruence|]. reflexivity.
Qed.
Lemma unroll_head x n runs : hd_error (unroll ((x, n) :: runs)) = Some x.
Proof. reflexivity. Qed.

Lemma ctc_token_pad pad delim cleanup : pad <> [] -> delim <> [] -> ctc_token pad delim cleanup pad = [].
Proof. intros H D. unfold ctc_token. rewrite str_replace_whole by exact H. destruct cleanup; [|reflexivity]. unfold str_replace. destruct delim; [congruence|]. reflexivity. Qed.

Lemma cleanup_absent s : Forall (fun r => ~ occurs (fst r) s) clean_rules -> wp_cleanup s = s.
Proof.
  intros F. unfold wp_cleanup. change cleanup_rules with clean_rules. assert (N : Forall (fun r : str * str => fst r <> []) clean_rules) by (repeat constructor; discriminate).
  revert F N. generalize clean_rules as rules. induction rules as [|[p r] rules IH]; intros F N; [reflexivity|].
  inversion F as [|? ? F1 F2]; inversion N as [|? ? N1 N2]; subst. cbn [fold_left fst snd]. rewrite str_replace_absent by assumption. apply IH; assumption.
Qed.

(** ** Strip *)
Lemma strip_start_split c m : hd_error m <> Some c -> forall k a, strip_start c k (repeat c a ++ m) = Nat.min a k.
Proof.
  intros Hm. induction k as [|k IH]; intros a; [rewrite Nat.min_0_r; destruct (repeat c a ++ m); reflexivity|].
  destruct a as [|a]; cbn [repeat app strip_start].
  - destruct m as [|d m]; [reflexivity|]. cbn [hd_error] in Hm. destruct (N.eqb_spec d c); [congruence|reflexivity].
  - rewrite N.eqb_refl. cbn [Nat.min]. rewrite IH. reflexivity.
Qed.
Lemma strip_stop_split {E} c m : m <> [] -> hd_error m <> Some c -> forall k a, @strip_stop E c k (repeat c a ++ m) = Ok (length m + (a - k)).
Proof.
  intros Nm Hm. induction k as [|k IH]; intros a; cbn [strip_stop].
  - rewrite app_length, repeat_length. f_equal. lia.
  - destruct a as [|a]; cbn [repeat app].
    + destruct m as [|d m]; [congruence|]. cbn [hd_error] in Hm. destruct (N.eqb_spec d c); [congruence|]. cbn [length]. f_equal. lia.
    + rewrite N.eqb_refl, IH. reflexivity.
Qed.
Lemma strip_stop_all {E} c : forall k n, @strip_stop E c k (repeat c n) = if k <=? n then Ok (n - k) else Panic.
Proof.
  induction k as [|k IH]; intros n; cbn [strip_stop]; [rewrite repeat_length, Nat.sub_0_r; reflexivity|].
  destruct n as [|n]; [reflexivity|]. cbn [repeat]. rewrite N.eqb_refl, IH. reflexivity.
Qed.

Lemma rev_repeat {A} (x : A) n : rev (repeat x n) = repeat x n.
Proof.
  induction n as [|n IH]; [reflexivity|]. cbn [repeat rev]. rewrite IH. clear. induction n as [|n IH]; [reflexivity|]. cbn [repeat app]. rewrite IH. reflexivity.
Qed.
Lemma skipn_repeat {A} (x : A) k n : skipn k (repeat x n) = repeat x (n - k).
Proof. revert n. induction k as [|k IH]; intros n; [rewrite Nat.sub_0_r; reflexivity|]. destruct n as [|n]; [reflexivity|]. cbn [repeat skipn]. apply IH. Qed.
Lemma firstn_repeat {A} (x : A) k n : firstn k (repeat x n) = repeat x (Nat.min k n).
Proof. revert n. induction k as [|k IH]; intros n; [reflexivity|]. destruct n as [|n]; [reflexivity|]. cbn [repeat firstn Nat.min]. f_equal. apply IH. Qed.

Lemma strip_all {E} c start stop n :
  @strip_token E c start stop (repeat c n) =
    if Nat.min start n + stop <=? n then Ok (repeat c (n - (Nat.min start n + stop))) else Panic.
Proof.
  unfold strip_token. rewrite rev_repeat, strip_stop_all.
  assert (S : strip_start c start (repeat c n) = Nat.min start n).
  { rewrite <- (app_nil_r (repeat c n)). rewrite strip_start_split by discriminate. apply Nat.min_comm. }
  rewrite S. destruct (Nat.leb_spec stop n) as [L|L]; cbn [bind].
  - unfold slice. rewrite repeat_length. replace (n - stop <=? n) with true by lia. rewrite andb_true_r.
    destruct (Nat.leb_spec (Nat.min start n) (n - stop)) as [L2|L2]; destruct (Nat.leb_spec (Nat.min start n + stop) n) as [L3|L3]; try lia; [|reflexivity].
    rewrite skipn_repeat, firstn_repeat. f_equal. f_equal. lia.
  - destruct (Nat.leb_spec (Nat.min start n + stop) n); [lia|reflexivity].
Qed.

Lemma strip_mixed {E} c start stop a b m : m <> [] -> hd_error m <> Some c -> hd_error (rev m) <> Some c ->
  @strip_token E c start stop (repeat c a ++ m ++ repeat c b) = Ok (repeat c (a - start) ++ m ++ repeat c (b - stop)).
Proof.
  intros Nm H1 H2. unfold strip_token.
  rewrite strip_start_split by (destruct m; [congruence|exact H1]).
  rewrite !rev_app_distr, !rev_repeat, <- app_assoc.
  rewrite strip_stop_split.
  2: { intros E0. apply (f_equal (@length N)) in E0. rewrite app_length, rev_length in E0. destruct m; [congruence|cbn in E0; lia]. }
  2: { destruct (rev m) eqn:Er; [|exact H2]. apply (f_equal (@length N)) in Er. rewrite rev_length in Er. destruct m; [congruence|discriminate]. }
  cbn [bind]. rewrite app_length, rev_length, repeat_length. rewrite slice_ok.
  2: lia. 2: rewrite !app_length, !repeat_length; lia.
  f_equal. rewrite skipn_app, repeat_length, skipn_repeat. replace (Nat.min a start - a) with 0 by lia. cbn [skipn].
  replace (a - Nat.min a start) with (a - start) by lia.
  rewrite firstn_app, repeat_length, firstn_all2 by (rewrite repeat_length; lia). f_equal.
  rewrite firstn_app, firstn_all2 by lia. f_equal. rewrite firstn_repeat. f_equal. lia.
Qed.

Lemma split_content (c : char) (t : str) : (exists n, t = repeat c n) \/
  exists a b (m : str), t = repeat c a ++ m ++ repeat c b /\ m <> [] /\ hd_error m <> Some c /\ hd_error (rev m) <> Some c.
Proof.
  assert (F : forall t : str, exists a (m : str), t = repeat c a ++ m /\ hd_error m <> Some c).
  { clear. induction t as [|x t (a & m & -> & H)]; [exists 0, []; split; [reflexivity|discriminate]|].
    destruct (N.eq_dec x c) as [->|Nx]; [exists (S a), m; auto|]. exists 0, (x :: repeat c a ++ m). split; [reflexivity|]. cbn. congruence. }
  destruct (F t) as (a & m & -> & Hm). destruct (F (rev m)) as (b & r & Er & Hr).
  assert (Em : m = rev r ++ repeat c b) by (rewrite <- (rev_involutive m), Er, rev_app_distr, rev_repeat; reflexivity).
  destruct r as [|x r].
  - left. cbn in Em. subst m. exists (a + b). rewrite repeat_app. reflexivity.
  - right. exists a, b, (rev (x :: r)). rewrite rev_involutive. split; [rewrite Em; reflexivity|].
    assert (N : rev (x :: r) <> []) by (intros E0; apply (f_equal (@length N)) in E0; rewrite rev_length in E0; discriminate).
    split; [exact N|]. split; [|exact Hr]. rewrite Em in Hm. destruct (rev (x :: r)); [congruence|]. exact Hm.
Qed.
