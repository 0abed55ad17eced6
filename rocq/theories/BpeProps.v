(** Theorems about BPE: C32 (canonical segmentation), C33 (cover), C34 (dropout),
    C36 (construction). *)
From Verif Require Import Base StrBytes ListFacts Utf8 AMap EncodingModel BpeWordModel BpeWordSpec BpeWordProofs BpeModel BpeSpec BpeProofs.

(** ** A heap for the examples *)
Lemma pop_min_ok : heap_ok pop_min.
Proof.
  split; [reflexivity|]. induction q as [|e q IH]; intros NE; [congruence|]. cbn [pop_min]. destruct q as [|e1 q].
  - cbn. exists e, []. split; [reflexivity|]. split; [apply Permutation_refl|intros e' []].
  - destruct IH as (f & r & -> & P & M); [discriminate|]. destruct (before e f) eqn:B.
    + exists e, (e1 :: q). split; [reflexivity|]. split; [apply Permutation_refl|]. intros e' HI.
      assert (BF : (mg_rank e < mg_rank f)%N \/ (mg_rank e = mg_rank f /\ mg_pos e <= mg_pos f)).
      { unfold before in B. apply orb_true_iff in B. rewrite andb_true_iff, N.ltb_lt, N.eqb_eq, Nat.leb_le in B. exact B. }
      apply (Permutation_in _ P) in HI. destruct HI as [<-|HI]; [exact BF|]. specialize (M _ HI). lia.
    + exists f, (e :: r). split; [reflexivity|]. split; [rewrite P; apply perm_swap|]. intros e' [<-|HI]; [|apply M; exact HI].
      unfold before in B. apply orb_false_iff in B. rewrite andb_false_iff, N.ltb_ge, N.eqb_neq, Nat.leb_gt in B. lia.
Qed.

(** ** C32 *)

(** Without dropout the merges give the canonical segmentation of the symbols,
    whatever the heap does with ties, when merging adds up some weight that is
    positive for all the symbols after the first. *)
Theorem C32_canonical pop merges wt draws l :
  heap_ok pop -> (forall k, draws k = false) -> additive merges wt ->
  Forall (fun s => 0 < snd s) l -> Forall (fun s => (0 < wt (fst s))%Z) (tl l) ->
  exists out, merge_all pop merges draws (word_of l) = Ok out /\ canonical merges l (word_view out).
Proof. intros. eapply merge_all_canonical; eauto. Qed.

(** There is only one canonical segmentation. *)
Theorem C32_unique merges l a b : canonical merges l a -> canonical merges l b -> a = b.
Proof. apply canonical_unique. Qed.

(** A table made by the builder from a vocabulary without two tokens of the same
    id: any symbols whose text, after the first symbol, is longer than the prefix. *)
Theorem C32_built pop vocab merges prefix m draws l :
  heap_ok pop -> (forall k, draws k = false) -> built vocab merges prefix m -> NoDup (map snd vocab) ->
  Forall (fun s => 0 < snd s) l ->
  Forall (fun s => exists t, In (t, fst s) vocab /\ opt_blen prefix < blen t) (tl l) ->
  exists out, merge_all pop (b_lookup m) draws (word_of l) = Ok out /\ canonical (b_lookup m) l (word_view out).
Proof.
  intros HP HD [D1 (d & unk & sf & fu & fb & ig & B)] D2 F1 F2. apply build_facts in B.
  eapply (merge_all_canonical pop (b_lookup m) (text_weight prefix m)); [exact HP|exact HD|eapply built_additive; [exact B|exact D2]|exact F1|].
  eapply Forall_impl; [|exact F2]. cbn. intros s (t & HI & L). unfold text_weight. apply (b_token_inj _ _ _ _ B _ _ D2) in HI. rewrite HI. lia.
Qed.

Lemma known_run_weight vocab merges prefix m : built_facts vocab merges prefix m -> NoDup (map snd vocab) ->
  forall x post l, known_run m false x post l -> Forall (fun s => (0 < text_weight prefix m (fst s))%Z) l.
Proof.
  intros BF ND x post l H. remember false as first eqn:EF. revert EF. induction H as [first post|first c x post id l EI _ IH]; intros ->; [constructor|].
  constructor; [|auto]. cbn. unfold text_weight. apply (b_id_in _ _ _ _ BF) in EI. apply (b_token_inj _ _ _ _ BF _ _ ND) in EI. rewrite EI.
  unfold decorate. rewrite (bf_prefix _ _ _ _ BF). pose proof (len_utf8_pos c). destruct prefix, (is_nil (x ++ post)), (b_suffix m); rewrite ?blen_app; cbn [blen opt_blen]; lia.
Qed.

Lemma known_run_symbols m vocab merges prefix : built_facts vocab merges prefix m -> forall first s post l, known_run m first s post l -> forall p c q, s = p ++ c :: q ->
  exists id, In (decorate m (first && is_nil p) (is_nil (q ++ post)) [c], id) (b_vocab m) /\ nth_error l (length p) = Some (id, len_utf8 c).
Proof.
  intros BF first s post l H. induction H as [first post|first c x post id l EI _ IH]; intros p d q E; [destruct p; discriminate|].
  destruct p as [|e p]; cbn [app] in E; injection E as -> E.
  - subst x. exists id. cbn [is_nil length nth_error]. rewrite andb_true_r. split; [|reflexivity]. rewrite (bf_vocab _ _ _ _ BF). apply (b_id_in _ _ _ _ BF). exact EI.
  - destruct (IH _ _ _ E) as (id' & X & Y). exists id'. cbn [is_nil length nth_error]. rewrite andb_false_r. auto.
Qed.

Lemma tokens_view (w : word) : forall pos ts, map t_id ts = get_chars w -> map t_offsets ts = get_offsets pos w -> map token_symbol ts = word_view w.
Proof.
  induction w as [|x w IH]; intros pos [|t ts] E1 E2; cbn in *; try discriminate; [reflexivity|].
  injection E1 as E1 E1'. injection E2 as E2 E2'. f_equal; [|eapply IH; eauto]. unfold token_symbol. rewrite E1, E2. cbn. f_equal. lia.
Qed.

Lemma known_word pop vocab merges prefix m draws s : heap_ok pop -> built_facts vocab merges prefix m ->
  (forall p c q, s = p ++ c :: q -> known_char m (is_nil p) (is_nil q) c) ->
  exists toks l w, (let! w := merge_word pop m draws s in word_to_tokens m w) = Ok toks /\ known_run m true s [] l /\ char_symbols m s l /\
    Forall (fun x => 0 < snd x) l /\ merge_all pop (b_lookup m) draws (word_of l) = Ok w /\ map token_symbol toks = word_view w.
Proof.
  intros HP BF AK. destruct (leaves_known m s true AK) as (l & L & KR). pose proof (word_tokens_spec vocab merges prefix m pop draws s BF HP) as W.
  destruct (let! w := merge_word pop m draws s in word_to_tokens m w) as [ts|e|] eqn:ET.
  - destruct W as (l' & w & L' & P & G & M & E1 & E2 & E3). rewrite L in L'. injection L' as <-. exists ts, l, w. split; [reflexivity|]. split; [exact KR|]. split.
    + split; [apply (known_run_length _ _ _ _ _ KR)|]. intros p c q E. destruct (known_run_symbols _ _ _ _ BF _ _ _ _ KR _ _ _ E) as (id & X & Y). cbn [andb] in X. rewrite app_nil_r in X. eauto.
    + split; [exact P|]. split; [|eapply tokens_view; eauto]. rewrite merge_word_leaves, L in M. cbn [bind] in M. destruct (merge_all _ _ _ _) as [out|[]|]; try discriminate. injection M as ->. reflexivity.
  - exfalso. pose proof (merge_word_spec pop m draws s HP) as H. destruct (merge_word pop m draws s) as [w|e'|]; [|congruence|destruct H]. cbn [bind] in ET.
    destruct W as [-> _]. unfold word_to_tokens in ET. clear - ET. revert ET. generalize (combine (get_chars w) (get_offsets 0 w)).
    induction l as [|x l IH]; cbn; [discriminate|]. destruct (b_token m (fst x)); cbn; [|discriminate]. destruct (map_res _ l); cbn in *; try discriminate. intros H. apply IH. congruence.
  - destruct W.
Qed.

(** The tokens of a word of known characters are its canonical segmentation. *)
Theorem C32_tokenize pop vocab merges prefix m draws s :
  heap_ok pop -> built vocab merges prefix m -> NoDup (map snd vocab) -> s <> [] ->
  b_dropout m = DNone \/ b_dropout m = DZero -> b_ignore_merges m = false ->
  (forall p c q, s = p ++ c :: q -> known_char m (is_nil p) (is_nil q) c) ->
  exists toks l, bpe_tokenize pop m draws s = Ok toks /\ char_symbols m s l /\ canonical (b_lookup m) l (map token_symbol toks).
Proof.
  intros HP [D1 (d & unk & sf & fu & fb & ig & B)] D2 NE DO IG AK. apply build_facts in B.
  destruct (known_word pop vocab merges prefix m no_draw s HP B AK) as (toks & l & w & ET & KR & CS & P & M & V).
  exists toks, l. split; [|split; [exact CS|]].
  - unfold bpe_tokenize, tokenize_plain. replace (is_nil s) with false by (destruct s; [congruence|reflexivity]). rewrite IG. destruct DO as [-> | ->]; exact ET.
  - rewrite V. destruct (merge_all_canonical pop (b_lookup m) (text_weight prefix m) no_draw l HP) as (out & E & C); [reflexivity|eapply built_additive; [exact B|exact D2]|exact P| |].
    + inversion KR as [|? ? ? ? ? ? EI KR']; subst; [constructor|]. cbn [tl]. eapply known_run_weight; eauto.
    + rewrite M in E. injection E as ->. exact C.
Qed.

(** Two tokens of the same id: an entry of the heap made stale by another merge
    can pass for a current one, and a rule is applied too early. *)
Definition dup_vocab : list (str * N) :=
  [([120], 0); ([121], 1); ([122], 2); ([116], 3); ([121; 122], 4); ([121; 122; 116], 5); ([120; 121], 10); ([120; 121; 122], 10)]%N.
Definition dup_merges : list (str * str) :=
  [([121], [122]); ([120], [121]); ([121; 122], [116]); ([120], [121; 122])]%N.

Theorem C32_distinct_ids_needed_refuted :
  exists m toks l, built dup_vocab dup_merges None m /\ b_dropout m = DNone /\ b_ignore_merges m = false /\
    bpe_tokenize pop_min m no_draw [120; 121; 122; 116]%N = Ok toks /\ char_symbols m [120; 121; 122; 116]%N l /\
    ~ canonical (b_lookup m) l (map token_symbol toks) /\ canonical (b_lookup m) l [(0%N, 1); (5%N, 3)].
Proof.
  destruct (bpe_build dup_vocab dup_merges DNone None None None false false false) as [m|e|] eqn:E; [|vm_compute in E; discriminate|vm_compute in E; discriminate].
  assert (C : canonical (b_lookup m) [(0%N, 1); (1%N, 1); (2%N, 1); (3%N, 1)] [(0%N, 1); (5%N, 3)]).
  { vm_compute in E. injection E as <-. split.
    - econstructor; [|econstructor; [|constructor]].
      + exists 1, 0%N. split; [eapply (applies_at _ _ _ _ _ [(0%N, 1)] 1%N 1 2%N 1 [(3%N, 1)] 4%N); reflexivity|].
        intros k r l'' [pre a la b lb post n E1 E2 E3 E4]. destruct pre as [|? [|? [|? [|]]]]; try (exfalso; apply (f_equal (@length (N * nat))) in E1; cbn [app length] in E1; rewrite app_length in E1; cbn in E1; lia); cbn in E1; try discriminate; injection E1; intros; subst; vm_compute in E3; try discriminate; inversion E3; subst; cbn [length]; lia.
      + exists 1, 2%N. split; [eapply (applies_at _ _ _ _ _ [(0%N, 1)] 4%N 2 3%N 1 [] 5%N); reflexivity|].
        intros k r l'' [pre a la b lb post n E1 E2 E3 E4]. destruct pre as [|? [|? [|]]]; try (exfalso; apply (f_equal (@length (N * nat))) in E1; cbn [app length] in E1; rewrite app_length in E1; cbn in E1; lia); cbn in E1; try discriminate; injection E1; intros; subst; vm_compute in E3; try discriminate; inversion E3; subst; cbn [length]; lia.
    - intros k r l'' [pre a la b lb post n E1 E2 E3 E4]. destruct pre as [|? [|? [|]]]; try (exfalso; apply (f_equal (@length (N * nat))) in E1; cbn [app length] in E1; rewrite app_length in E1; cbn in E1; lia); cbn in E1; try discriminate; injection E1; intros; subst; vm_compute in E3; discriminate. }
  exists m. exists [mkTok 10%N [120; 121; 122]%N (0, 3); mkTok 3%N [116]%N (3, 4)], [(0%N, 1); (1%N, 1); (2%N, 1); (3%N, 1)].
  split.
  { split; [|exists DNone, None, None, false, false, false; exact E]. cbv. repeat constructor; cbn; intuition discriminate. }
  split; [vm_compute in E; injection E as <-; reflexivity|]. split; [vm_compute in E; injection E as <-; reflexivity|].
  split; [vm_compute in E; injection E as <-; vm_compute; reflexivity|]. split; [|split; [|exact C]].
  - vm_compute in E. injection E as <-. split; [reflexivity|]. intros p c q EQ.
    destruct p as [|? [|? [|? [|? [|]]]]]; try (exfalso; apply (f_equal (@length N)) in EQ; cbn [app length] in EQ; rewrite app_length in EQ; cbn in EQ; lia); cbn in EQ; try discriminate; injection EQ; intros; subst; eexists; (split; [|reflexivity]); cbn; tauto.
  - intros C'. pose proof (canonical_unique _ _ _ _ C C') as X. cbn in X. discriminate.
Qed.

(** Non-vacuity: a small model with a prefix, and a word it splits. *)
Definition ex_vocab : list (str * N) :=
  [([97], 0); ([35; 98], 1); ([35; 99], 2); ([97; 98], 3); ([35; 98; 99], 4); ([97; 98; 99], 5); ([63], 6); ([98], 7)]%N.
Definition ex_merges : list (str * str) := [([97], [35; 98]); ([35; 98], [35; 99]); ([97], [35; 98; 99])]%N.
Definition ex_bpe : bpe :=
  mkBpe ex_vocab (reverse_vocab ex_vocab) [((0, 1), (0, 3)); ((1, 2), (1, 4)); ((0, 4), (2, 5))]%N DNone (Some [63%N]) (Some [35%N]) None false false false.

Lemma nodup_check {A} (eqb : A -> A -> bool) (l : list A) : (forall a b, eqb a b = true <-> a = b) ->
  (fix go l := match l with [] => true | x :: l' => negb (existsb (eqb x) l') && go l' end) l = true -> NoDup l.
Proof.
  intros HE. induction l as [|x l IH]; intros H; [constructor|]. apply andb_true_iff in H. destruct H as [H1 H2]. constructor; [|auto].
  intros HI. apply negb_true_iff in H1. assert (existsb (eqb x) l = true) by (apply existsb_exists; exists x; split; [exact HI|apply HE; reflexivity]). congruence.
Qed.

Example ex_bpe_built : built ex_vocab ex_merges (Some [35%N]) ex_bpe /\ NoDup (map snd ex_vocab).
Proof.
  split; [split|].
  - apply (nodup_check str_eqb); [apply str_eqb_eq|vm_compute; reflexivity].
  - exists DNone, (Some [63%N]), None, false, false, false. vm_compute. reflexivity.
  - apply (nodup_check N.eqb); [apply N.eqb_eq|vm_compute; reflexivity].
Qed.

Example C32_ex : (forall p c q, [97; 98; 99]%N = p ++ c :: q -> known_char ex_bpe (is_nil p) (is_nil q) c) /\
  bpe_tokenize pop_min ex_bpe no_draw [97; 98; 99]%N = Ok [mkTok 3%N [97; 98]%N (0, 2); mkTok 2%N [35; 99]%N (2, 3)].
Proof.
  split; [|vm_compute; reflexivity]. intros p c q EQ.
  destruct p as [|? [|? [|? [|]]]]; try (exfalso; apply (f_equal (@length N)) in EQ; cbn [app length] in EQ; rewrite app_length in EQ; cbn in EQ; lia); cbn in EQ; try discriminate; injection EQ; intros; subst; vm_compute; discriminate.
Qed.

(** ** C34 *)

(** Whatever the draws: the merges terminate and the result is obtained by
    applying rules of the table; in particular its total length is kept. *)
Theorem C34_valid pop merges draws l : heap_ok pop -> Forall (fun s => 0 < snd s) l ->
  exists out, merge_all pop merges draws (word_of l) = Ok out /\ derives merges l (word_view out) /\
    list_sum (map snd (word_view out)) = list_sum (map snd l).
Proof.
  intros HP F. destruct (merge_all_derives pop merges draws l HP F) as (out & E & D). exists out. split; [exact E|]. split; [exact D|]. eapply derives_length. exact D.
Qed.

Theorem C34_all_dropped pop merges draws l : heap_ok pop -> (forall k, draws k = true) -> Forall (fun s => 0 < snd s) l ->
  exists out, merge_all pop merges draws (word_of l) = Ok out /\ word_view out = l.
Proof. apply merge_all_none. Qed.

Theorem C34_none_dropped pop vocab merges prefix m draws l :
  heap_ok pop -> (forall k, draws k = false) -> built vocab merges prefix m -> NoDup (map snd vocab) ->
  Forall (fun s => 0 < snd s) l ->
  Forall (fun s => exists t, In (t, fst s) vocab /\ opt_blen prefix < blen t) (tl l) ->
  exists out, merge_all pop (b_lookup m) draws (word_of l) = Ok out /\ canonical (b_lookup m) l (word_view out).
Proof. intros. eapply C32_built; eauto. Qed.

(** On tokens: with dropout set, the tokens of a word of known characters come
    from its characters by rules of the table. *)
Theorem C34_tokenize pop vocab merges prefix m draws s :
  heap_ok pop -> built vocab merges prefix m -> s <> [] -> b_dropout m = DPositive ->
  (forall p c q, s = p ++ c :: q -> known_char m (is_nil p) (is_nil q) c) ->
  exists toks l, bpe_tokenize pop m draws s = Ok toks /\ char_symbols m s l /\ derives (b_lookup m) l (map token_symbol toks) /\
    ((forall k, draws k = true) -> map token_symbol toks = l).
Proof.
  intros HP [D1 (d & unk & sf & fu & fb & ig & B)] NE DO AK. apply build_facts in B.
  destruct (known_word pop vocab merges prefix m draws s HP B AK) as (toks & l & w & ET & KR & CS & P & M & V).
  exists toks, l. split; [|split; [exact CS|split]].
  - unfold bpe_tokenize. replace (is_nil s) with false by (destruct s; [congruence|reflexivity]). rewrite DO. exact ET.
  - rewrite V. destruct (merge_all_derives pop (b_lookup m) draws l HP P) as (out & E & C). rewrite M in E. injection E as ->. exact C.
  - intros HD. rewrite V. destruct (merge_all_none pop (b_lookup m) draws l HP HD P) as (out & E & C). rewrite M in E. injection E as ->. exact C.
Qed.

Example C34_ex : exists out, merge_all pop_min (b_lookup ex_bpe) (fun k => k =? 0) (word_of [(0%N, 1); (1%N, 1); (2%N, 1)]) = Ok out /\
  word_view out = [(5%N, 3)].
Proof. eexists. split; vm_compute; reflexivity. Qed.

(** ** C33 *)
Lemma bpe_tokenize_cases pop m draws s ts : bpe_tokenize pop m draws s = Ok ts ->
  (s = [] /\ ts = []) \/
  (s <> [] /\ b_ignore_merges m = true /\ exists id, b_id m s = Some id /\ ts = [mkTok id s (0, blen s)]) \/
  (s <> [] /\ exists draws', (let! w := merge_word pop m draws' s in word_to_tokens m w) = Ok ts).
Proof.
  unfold bpe_tokenize, tokenize_plain. destruct s as [|c s]; cbn [is_nil]; [intros H; injection H as <-; auto|]. intros H. right.
  assert (NE : c :: s <> []) by discriminate.
  assert (P : match (if b_ignore_merges m then b_id m (c :: s) else None) with Some id => Ok [mkTok id (c :: s) (0, blen (c :: s))]
              | None => let! w := merge_word pop m no_draw (c :: s) in word_to_tokens m w end = Ok ts \/ (let! w := merge_word pop m draws (c :: s) in word_to_tokens m w) = Ok ts)
    by (destruct (b_dropout m); auto).
  destruct P as [P|P]; [|right; eauto]. destruct (b_ignore_merges m) eqn:IG; [|right; eauto]. destruct (b_id m (c :: s)) as [id|] eqn:EI; [|right; eauto].
  left. injection P as <-. eauto.
Qed.

(** Tokens follow each other from 0; they end at the end of the word as soon as
    every character is known, or has its bytes in the vocabulary, or there is an
    unknown token. *)
Theorem C33_cover pop vocab merges prefix m draws s toks :
  heap_ok pop -> built vocab merges prefix m -> bpe_tokenize pop m draws s = Ok toks ->
  exists e, ranges_from 0 (map t_offsets toks) e /\ (covered m s -> e = blen s).
Proof.
  intros HP [D1 (d & unk & sf & fu & fb & ig & B)] H. apply build_facts in B. apply bpe_tokenize_cases in H.
  destruct H as [[-> ->]|[(NE & _ & id & _ & ->)|(NE & draws' & H)]].
  - exists 0. cbn. auto.
  - exists (blen s). cbn. split; [|auto]. destruct s as [|c s]; [congruence|]. cbn [blen]. pose proof (len_utf8_pos c). lia.
  - pose proof (word_tokens_spec vocab merges prefix m pop draws' s B HP) as W. rewrite H in W. destruct W as (l & w & L & P & G & _ & E1 & E2 & E3).
    exists (total (word_view w)). split.
    + rewrite E2. apply (offsets_ranges w 0). eapply groups_pos; eauto.
    + intros CV. rewrite (groups_total _ _ _ G). apply (leaves_total m s true None l); [|exact L]. intros p c q E. cbn [andb]. apply CV. exact E.
Qed.

(** Never a panic, and the only error is an unknown token missing from the vocabulary. *)
Theorem C33_total pop vocab merges prefix m draws s :
  heap_ok pop -> built vocab merges prefix m ->
  (exists toks, bpe_tokenize pop m draws s = Ok toks) \/
  (bpe_tokenize pop m draws s = Err EUnkToken /\ exists t, b_unk m = Some t /\ ~ In t (map fst vocab)).
Proof.
  intros HP [D1 (d & unk & sf & fu & fb & ig & B)]. apply build_facts in B. unfold bpe_tokenize, tokenize_plain. destruct (is_nil s); [left; eauto|].
  assert (W : forall dr, (exists toks, (let! w := merge_word pop m dr s in word_to_tokens m w) = Ok toks) \/
     ((let! w := merge_word pop m dr s in word_to_tokens m w) = Err EUnkToken /\ exists t, b_unk m = Some t /\ ~ In t (map fst vocab))).
  { intros dr. pose proof (word_tokens_spec vocab merges prefix m pop dr s B HP) as W. destruct (let! w := merge_word pop m dr s in word_to_tokens m w) as [ts|e|]; [left; eauto| |destruct W].
    destruct W as [-> (t & U & N)]. right. split; [reflexivity|]. exists t. split; [exact U|]. rewrite key_aget. unfold b_id in N. rewrite (bf_vocab _ _ _ _ B) in N. intros (i & E). congruence. }
  destruct (b_dropout m); [| |apply W|apply W]; destruct (if b_ignore_merges m then b_id m s else None); [left; eauto|apply W|left; eauto|apply W].
Qed.

(** Every token is in the vocabulary with its id. *)
Theorem C33_values pop vocab merges prefix m draws s toks t :
  heap_ok pop -> built vocab merges prefix m -> bpe_tokenize pop m draws s = Ok toks -> In t toks -> In (t_value t, t_id t) vocab.
Proof.
  intros HP [D1 (d & unk & sf & fu & fb & ig & B)] H HI. apply build_facts in B. apply bpe_tokenize_cases in H.
  destruct H as [[-> ->]|[(NE & _ & id & EI & ->)|(NE & draws' & H)]].
  - destruct HI.
  - destruct HI as [<-|[]]. cbn. apply (b_id_in _ _ _ _ B). exact EI.
  - pose proof (word_tokens_spec vocab merges prefix m pop draws' s B HP) as W. rewrite H in W. destruct W as (l & w & L & P & G & _ & E1 & E2 & E3).
    rewrite Forall_forall in E3. specialize (E3 _ HI). unfold b_token in E3. rewrite (bf_vocab_r _ _ _ _ B) in E3. apply reverse_vocab_in in E3. exact E3.
Qed.

(** The token over a run of known characters is that text, with the prefix and
    the suffix its place asks for ([ignore_merges] gives the bare word). *)
Theorem C33_text pop vocab merges prefix m draws pre x post toks t :
  heap_ok pop -> built vocab merges prefix m -> NoDup (map snd vocab) -> covered m (pre ++ x ++ post) -> all_known m pre x post ->
  bpe_tokenize pop m draws (pre ++ x ++ post) = Ok toks -> In t toks -> t_offsets t = (blen pre, blen pre + blen x) ->
  t_value t = in_place m pre x post \/ (b_ignore_merges m = true /\ pre = [] /\ post = [] /\ t_value t = x).
Proof.
  intros HP BT D2 CV AK H HI HO. pose proof (C33_cover _ _ _ _ _ _ _ _ HP BT H) as (e & RG & _).
  destruct BT as [D1 (d & unk & sf & fu & fb & ig & B)]. apply build_facts in B.
  assert (NX : x <> []).
  { intros ->. cbn in HO. clear - RG HI HO. revert RG. generalize 0. induction toks as [|u toks IH]; intros a RG; [destruct HI|]. cbn [map ranges_from] in RG.
    destruct (t_offsets u) as [y z] eqn:EU. destruct RG as (-> & L & RG). destruct HI as [->|HI]; [rewrite EU in HO; injection HO as -> ->; lia|]. eapply IH; eauto. }
  apply bpe_tokenize_cases in H. destruct H as [[E ->]|[(NE & IG & id & _ & ->)|(NE & draws' & H)]].
  - destruct HI.
  - right. destruct HI as [<-|[]]. cbn in HO |- *. injection HO as O1 O2. symmetry in O1. apply blen_0 in O1. subst pre. cbn [app blen] in *.
    rewrite blen_app in O2. assert (blen post = 0) by lia. apply blen_0 in H. subst post. rewrite app_nil_r. auto.
  - left. eapply token_text; eauto.
Qed.

(** When all the characters are known, every token is the text of some piece. *)
Theorem C33_known_word pop vocab merges prefix m draws s toks t :
  heap_ok pop -> built vocab merges prefix m -> NoDup (map snd vocab) ->
  (forall p c q, s = p ++ c :: q -> known_char m (is_nil p) (is_nil q) c) ->
  bpe_tokenize pop m draws s = Ok toks -> In t toks ->
  exists pre x post, s = pre ++ x ++ post /\ t_offsets t = (blen pre, blen pre + blen x) /\
    (t_value t = in_place m pre x post \/ (b_ignore_merges m = true /\ x = s /\ t_value t = s)).
Proof.
  intros HP [D1 (d & unk & sf & fu & fb & ig & B)] D2 AK H HI. apply build_facts in B. apply bpe_tokenize_cases in H.
  destruct H as [[-> ->]|[(NE & IG & id & EI & ->)|(NE & draws' & H)]].
  - destruct HI.
  - destruct HI as [<-|[]]. exists [], s, []. cbn. rewrite app_nil_r. repeat split; auto 10.
  - destruct (known_word_tokens _ _ _ _ _ _ _ _ _ B HP D2 AK H HI) as (pre & x & post & E1 & E2 & E3). exists pre, x, post. auto.
Qed.

(** An unknown token [?] inside a word: covered, and the offsets are those of the text. *)
Example C33_ex : covered ex_bpe [97; 8364; 98]%N /\ all_known ex_bpe [97; 8364]%N [98]%N [] /\
  bpe_tokenize pop_min ex_bpe no_draw [97; 8364; 98]%N = Ok [mkTok 0%N [97]%N (0, 1); mkTok 6%N [63]%N (1, 4); mkTok 1%N [35; 98]%N (4, 5)].
Proof.
  split; [|split].
  - intros p c q E. destruct p as [|? [|? [|? [|]]]]; try (exfalso; apply (f_equal (@length N)) in E; cbn [app length] in E; rewrite app_length in E; cbn in E; lia); cbn in E; try discriminate; injection E; intros; subst.
    + left. vm_compute. discriminate.
    + right. right. split; [intros [F _]; discriminate|]. exists [63%N]. split; [reflexivity|vm_compute; discriminate].
    + left. vm_compute. discriminate.
  - intros p c q E. destruct p as [|? [|]]; try (exfalso; apply (f_equal (@length N)) in E; cbn [app length] in E; rewrite app_length in E; cbn in E; lia); cbn in E; try discriminate. injection E; intros; subst. vm_compute. discriminate.
  - vm_compute. reflexivity.
Qed.

(** Where the hypotheses fail. *)
Definition fb_vocab : list (str * N) := [([97], 0); ([63], 1); (byte_token 195, 2); (byte_token 169, 3)]%N.

(** A character without its bytes, then one with: the unknown token comes after
    the bytes of the next character. *)
Theorem C33_byte_fallback_order_refuted :
  exists m, built fb_vocab [] None m /\
    bpe_tokenize pop_min m no_draw [8364; 233]%N = Ok [mkTok 2%N (byte_token 195) (0, 1); mkTok 3%N (byte_token 169) (1, 2); mkTok 1%N [63]%N (2, 5)].
Proof.
  eexists. split; [split; [apply (nodup_check str_eqb); [apply str_eqb_eq|vm_compute; reflexivity]|exists DNone, (Some [63%N]), None, false, true, false; vm_compute; reflexivity]|vm_compute; reflexivity].
Qed.

(** No unknown token: the character is dropped and the offsets after it are off. *)
Theorem C33_no_unk_refuted :
  exists m, built fb_vocab [] None m /\ bpe_tokenize pop_min m no_draw [8364; 97]%N = Ok [mkTok 0%N [97]%N (0, 1)].
Proof.
  eexists. split; [split; [apply (nodup_check str_eqb); [apply str_eqb_eq|vm_compute; reflexivity]|exists DNone, None, None, false, false, false; vm_compute; reflexivity]|vm_compute; reflexivity].
Qed.

(** Byte fallback with a prefix: the bytes of the prefix are counted. *)
Theorem C33_byte_fallback_prefix_refuted :
  exists m, built (([35%N], 9%N) :: (byte_token 35, 8%N) :: fb_vocab) [] (Some [35%N]) m /\
    exists toks t, bpe_tokenize pop_min m no_draw [97; 233]%N = Ok toks /\ In t toks /\ blen [97; 233]%N < snd (t_offsets t).
Proof.
  eexists. split; [split; [apply (nodup_check str_eqb); [apply str_eqb_eq|vm_compute; reflexivity]|exists DNone, None, None, false, true, false; vm_compute; reflexivity]|].
  eexists _, (mkTok 3%N (byte_token 169) (3, 4)). split; [vm_compute; reflexivity|]. split; [cbn; tauto|cbn; lia].
Qed.

(** ** C36 *)

(** Exactly the merge lists whose parts and results are in the vocabulary. *)
Theorem C36_accepts vocab merges d unk prefix suffix fuse fallback ignore :
  (exists m, bpe_build vocab merges d unk prefix suffix fuse fallback ignore = Ok m) <-> (d <> DOutside /\ acceptable vocab prefix merges).
Proof. apply build_accepts. Qed.

(** The table: each pair of ids has the rank and result of its last merge. *)
Theorem C36_table vocab merges prefix m ia ib r n : built vocab merges prefix m ->
  b_lookup m ia ib = Some (r, n) <->
  exists j, r = N.of_nat j /\ is_merge vocab prefix merges j ia ib n /\ forall j' n', j < j' -> ~ is_merge vocab prefix merges j' ia ib n'.
Proof.
  intros [D1 (d & unk & sf & fu & fb & ig & B)].
  assert (A : acceptable vocab prefix merges) by (eapply build_accepts; eauto). apply build_facts in B. rewrite (bf_merges _ _ _ _ B). split.
  - intros (j & a & b & p & rest & E1 & E2 & E3 & E4 & E5 & E6 & E7 & E8). exists j. split; [exact E1|]. split.
    + exists a, b, (a ++ rest). split; [exact E2|]. split; [exists p, rest; auto|]. rewrite !in_aget; auto.
    + intros j' n' L (a' & b' & t' & X1 & _ & X2 & X3 & _). apply (E8 j' L). exists a', b'. rewrite in_aget in X2, X3 by exact D1. auto.
  - intros (j & E1 & (a & b & t & E2 & (p & rest & E5 & E6 & ->) & E3 & E4 & E7) & E8). rewrite in_aget in E3, E4, E7 by exact D1.
    exists j, a, b, p, rest. repeat split; auto. intros j' L (a' & b' & X1 & X2 & X3).
    destruct (A a' b' (nth_error_In _ _ X1)) as (_ & _ & t' & MT & HT). apply in_map_iff in HT. destruct HT as ([t2 n'] & EQ & HT). cbn in EQ. subst t2.
    apply (E8 j' n' L). exists a', b', t'. rewrite <- in_aget in X2, X3 by exact D1. auto.
Qed.

(** The rest of the model is what was given. *)
Theorem C36_fields vocab merges d unk prefix suffix fuse fallback ignore m :
  bpe_build vocab merges d unk prefix suffix fuse fallback ignore = Ok m ->
  b_dropout m = d /\ b_unk m = unk /\ b_prefix m = prefix /\ b_suffix m = suffix /\ b_fuse m = fuse /\ b_fallback m = fallback /\ b_ignore_merges m = ignore /\
  (forall t i, NoDup (map fst vocab) -> b_id m t = Some i <-> In (t, i) vocab) /\
  (forall t i, NoDup (map snd vocab) -> b_token m i = Some t <-> In (t, i) vocab).
Proof.
  intros H. pose proof (build_facts _ _ _ _ _ _ _ _ _ _ H) as B.
  assert (E : exists mm, m = mkBpe vocab (reverse_vocab vocab) mm d unk prefix suffix fuse fallback ignore).
  { unfold bpe_build in H. destruct d; try discriminate; apply bind_ok in H; destruct H as (mm & _ & Y); injection Y as <-; eauto. }
  destruct E as (mm & ->). repeat split; try reflexivity.
  - intros X. apply (in_aget vocab t i H0). exact X.
  - intros X. apply (in_aget vocab t i H0). exact X.
  - intros X. apply (reverse_vocab_iff vocab t i H0). exact X.
  - intros X. apply (reverse_vocab_iff vocab t i H0). exact X.
Qed.

(** Building panics exactly when, after acceptable merges, one comes with both
    parts in the vocabulary and either a right part shorter than the prefix or
    a result longer than every token. *)
Theorem C36_panics vocab merges d unk prefix suffix fuse fallback ignore :
  bpe_build vocab merges d unk prefix suffix fuse fallback ignore = Panic <->
  d <> DOutside /\ exists m1 a b m2, merges = m1 ++ (a, b) :: m2 /\ acceptable vocab prefix m1 /\
    In a (map fst vocab) /\ In b (map fst vocab) /\
    (blen b < opt_blen prefix \/ forall t i, In (t, i) vocab -> blen t < blen a + (blen b - opt_blen prefix)).
Proof.
  rewrite <- (build_merges_panic vocab prefix merges 0 []). unfold bpe_build.
  destruct d; [| | |split; [discriminate|intros [H _]; congruence]]; (destruct (build_merges _ _ _ 0 merges []); cbn [bind]; split; [discriminate|intros [_ H]; discriminate|discriminate|intros [_ H]; discriminate|intros _; split; [discriminate|reflexivity]|reflexivity]).
Qed.

(** Both ways to panic. *)
Theorem C36_never_panics_refuted :
  bpe_build [([97], 0); ([98], 1); ([97; 98], 2)]%N [([97], [98])]%N DNone None (Some [35; 35]%N) None false false false = Panic /\
  bpe_build [([97], 0); ([98], 1)]%N [([97], [98])]%N DNone None None None false false false = Panic.
Proof. split; vm_compute; reflexivity. Qed.

Example C36_ex : acceptable ex_vocab (Some [35%N]) ex_merges /\
  bpe_build ex_vocab ex_merges DOutside None (Some [35%N]) None false false false = Err EInvalidDropout.
Proof.
  split; [|reflexivity]. apply (build_accepts ex_vocab ex_merges DNone None (Some [35%N]) None false false false). eexists. vm_compute. reflexivity.
Qed.

(** The byte tokens are "<0x00>" to "<0xFF>" in capitals, all different. *)
Definition hex_digits : str := [48; 49; 50; 51; 52; 53; 54; 55; 56; 57; 65; 66; 67; 68; 69; 70]%N.
Lemma hex_digit_nth d : (d < 16)%N -> nth_error hex_digits (N.to_nat d) = Some (hex_digit d).
Proof.
  intros L. assert (C : In d (map N.of_nat (seq 0 16))) by (apply in_map_iff; exists (N.to_nat d); split; [lia|apply in_seq; lia]).
  cbn in C. repeat (destruct C as [<-|C]; [reflexivity|]). destruct C.
Qed.
Theorem C33_byte_names : forall b, (b < 256)%N ->
  exists hi lo, byte_token b = [60; 48; 120; hi; lo; 62]%N /\
    nth_error hex_digits (N.to_nat (b / 16)) = Some hi /\ nth_error hex_digits (N.to_nat (b mod 16)) = Some lo.
Proof.
  intros b L. exists (hex_digit (b / 16)), (hex_digit (b mod 16)). split; [reflexivity|].
  split; apply hex_digit_nth; [apply N.div_lt_upper_bound; lia|apply N.mod_lt; lia].
Qed.
Theorem C33_byte_names_distinct : forall b c, (b < 256)%N -> (c < 256)%N -> byte_token b = byte_token c -> b = c.
Proof.
  assert (INJ : forall d e, (d < 16)%N -> (e < 16)%N -> hex_digit d = hex_digit e -> d = e).
  { intros d e Ld Le. unfold hex_digit. destruct (N.ltb_spec d 10), (N.ltb_spec e 10); lia. }
  intros b c Lb Lc E. unfold byte_token in E. injection E as E1 E2. apply INJ in E1; [|apply N.div_lt_upper_bound; lia|apply N.div_lt_upper_bound; lia]. apply INJ in E2; [|apply N.mod_lt; lia|apply N.mod_lt; lia].
  rewrite (N.div_mod b 16), (N.div_mod c 16) by lia. congruence.
Qed.
