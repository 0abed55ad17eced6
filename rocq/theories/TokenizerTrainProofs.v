(** Proofs about the training of a tokenizer. *)
From Verif Require Import Base ListFacts StrBytes Utf8 AMap EncodingModel NormModel PreTokModel AddedModel AddedSpec AddedProofs AddedProofs2 AddedProofs3 PreTokProofs
  TokenizerModel BpeTrainModel BpeTrainSpec BpeTrainProofs9 BpeTrainProps TokenizerTrainModel TokenizerTrainSpec.
From Verif Require SpmTripProofs.

(** ** Words *)
Definition split_text (sp : split) : str := n_normalized (sp_norm sp).

Lemma splits_ok pt : exists l, get_splits pt RefOriginal OByte = Ok l /\ map (fun x => fst (fst x)) l = map split_text (pt_splits pt).
Proof.
  unfold get_splits. generalize 0 as k. induction (pt_splits pt) as [|sp l IH]; intros k; [exists []; auto|]. cbn [get_splits_loop bind].
  destruct (IH k) as (l' & -> & E). cbn [bind]. eexists. split; [reflexivity|]. cbn [map fst]. rewrite E. reflexivity.
Qed.

Lemma words_steps t s ws : training_words t s = Ok ws <-> exists p1 p2,
  extract_and_normalize (tz_space t) (tz_word t) (tz_added t) (tz_normalizer t) s = Ok p1 /\ do_pre_tokenize t p1 = Ok p2 /\ ws = map split_text (pt_splits p2).
Proof.
  unfold training_words. split.
  - intros H. apply bind_ok in H. destruct H as (p1 & H1 & H). apply bind_ok in H. destruct H as (p2 & H2 & H). exists p1, p2. split; [exact H1|]. split; [exact H2|].
    destruct (splits_ok p2) as (l & E & EM). rewrite E in H. cbn [bind] in H. injection H as <-. exact EM.
  - intros (p1 & p2 & -> & H2 & ->). cbn [bind]. rewrite H2. cbn [bind]. destruct (splits_ok p2) as (l & -> & EM). cbn [bind]. rewrite EM. reflexivity.
Qed.

Lemma map_res_agree {A B E} (f g : A -> res E B) l : (forall x, In x l -> f x = g x) -> map_res f l = map_res g l.
Proof.
  induction l as [|x l IH]; intros H; [reflexivity|]. cbn [map_res]. rewrite (H x (or_introl eq_refl)), IH; [reflexivity|]. intros y Hy. apply H. right. exact Hy.
Qed.

Lemma limit_agree {E} (f g : nstring -> res E (list token)) mx : forall l total, (forall sp, In sp l -> f (sp_norm sp) = g (sp_norm sp)) ->
  limit_loop f mx total l = limit_loop g mx total l.
Proof.
  induction l as [|sp l IH]; intros total H; [reflexivity|]. cbn [limit_loop]. rewrite (H sp (or_introl eq_refl)).
  assert (G : forall k, limit_loop f mx k l = limit_loop g mx k l) by (intros k; apply IH; intros x Hx; apply H; right; exact Hx).
  destruct (sp_tokens sp); [rewrite G; reflexivity|]. destruct (g (sp_norm sp)) as [ts| |]; cbn [bind]; [|reflexivity|reflexivity]. rewrite G. reflexivity.
Qed.

Lemma tokenize_agree t f g lim pt : (forall sp, In sp (pt_splits pt) -> f (split_text sp) = g (split_text sp)) ->
  tokenize_in (with_model t f) lim pt = tokenize_in (with_model t g) lim pt.
Proof.
  intros H. unfold tokenize_in. cbn [tz_model with_model].
  assert (G : forall sp, In sp (pt_splits pt) -> (fun ns => f (n_normalized ns)) (sp_norm sp) = (fun ns => g (n_normalized ns)) (sp_norm sp)) by exact H.
  destruct lim as [[mx d]|].
  - unfold pt_tokenize_with_limit. destruct d.
    + rewrite (limit_agree (fun ns => f (n_normalized ns)) (fun ns => g (n_normalized ns)) mx (rev (pt_splits pt)) 0); [reflexivity|]. intros sp Hs. apply G. apply in_rev. exact Hs.
    + rewrite (limit_agree (fun ns => f (n_normalized ns)) (fun ns => g (n_normalized ns)) mx (pt_splits pt) 0 G). reflexivity.
  - unfold pt_tokenize. rewrite (map_res_agree (tokenize_one (fun ns => f (n_normalized ns))) (tokenize_one (fun ns => g (n_normalized ns)))); [reflexivity|].
    intros sp Hs. unfold tokenize_one. destruct (sp_tokens sp); [reflexivity|]. rewrite (G sp Hs). reflexivity.
Qed.

Lemma part_agree t f g ty ot wi s ws : training_words t s = Ok ws -> (forall w, In w ws -> f w = g w) ->
  encode_part (with_model t f) ty ot wi s = encode_part (with_model t g) ty ot wi s.
Proof.
  intros HW H. apply words_steps in HW. destruct HW as (p1 & p2 & E1 & E2 & ->). unfold encode_part, do_pre_tokenize, do_tokenize in *.
  cbn [tz_space tz_word tz_added tz_normalizer tz_pre_tokenizer with_model]. rewrite E1. cbn [bind]. unfold do_pre_tokenize in E2. rewrite E2. cbn [bind].
  change (token_limit (with_model t f) ty) with (token_limit t ty). change (token_limit (with_model t g) ty) with (token_limit t ty).
  rewrite (tokenize_agree t f g); [reflexivity|]. intros sp Hs. apply H. apply in_map. exact Hs.
Qed.

(** ** Lines *)
Lemma low_bytes c b : In b (encode_char c) -> (b < 128)%N -> c = b.
Proof.
  unfold encode_char. intros H L. destruct (c <? 128)%N eqn:E1; [destruct H as [H|[]]; exact H|].
  destruct (c <? 2048)%N; [|destruct (c <? 65536)%N]; cbn [In] in H; repeat (destruct H as [H|H]; [lia|]); destruct H.
Qed.

Lemma no_feed l : ~ In 10%N l -> ~ In 10%N (encode_utf8 l).
Proof.
  intros H X. unfold encode_utf8 in X. apply in_flat_map in X. destruct X as (c & Hc & X). apply low_bytes in X; [|lia]. subst c. contradiction.
Qed.

Lemma read_line_to l rest : ~ In 10%N l -> read_line (l ++ 10%N :: rest) = (l ++ [10%N], rest).
Proof.
  induction l as [|b l IH]; intros H; [reflexivity|]. cbn [app read_line]. destruct (N.eqb_spec b 10) as [->|_]; [destruct H; left; reflexivity|].
  rewrite IH; [reflexivity|]. intros X. apply H. right. exact X.
Qed.

Lemma read_line_last l : ~ In 10%N l -> read_line l = (l, []).
Proof.
  induction l as [|b l IH]; intros H; [reflexivity|]. cbn [read_line]. destruct (N.eqb_spec b 10) as [->|_]; [destruct H; left; reflexivity|].
  rewrite IH; [reflexivity|]. intros X. apply H. right. exact X.
Qed.

Lemma ends_line_snoc l : ends_line (l ++ [10%N]) = true.
Proof. unfold ends_line. rewrite rev_app_distr. reflexivity. Qed.
Lemma ends_line_no l : ~ In 10%N l -> ends_line l = false.
Proof.
  intros H. unfold ends_line. destruct (rev l) as [|b r] eqn:E; [reflexivity|]. destruct (N.eqb_spec b 10) as [->|_]; [|reflexivity].
  destruct H. apply in_rev. rewrite E. left. reflexivity.
Qed.

(** A complete line, then the rest. *)
Lemma lines_step f broken l rest : ~ In 10%N l ->
  lines_fuel (S f) broken (l ++ 10%N :: rest) = from_utf8 (l ++ [10%N]) :: lines_fuel f broken rest.
Proof.
  intros H. cbn [lines_fuel]. rewrite (read_line_to _ _ H), ends_line_snoc. cbn [negb]. rewrite andb_false_r. destruct (l ++ [10%N]) eqn:E; [destruct l; discriminate|reflexivity].
Qed.

Lemma lines_more : forall f f' broken bytes, length bytes < f -> length bytes < f' -> lines_fuel f broken bytes = lines_fuel f' broken bytes.
Proof.
  induction f as [|f IH]; intros f' broken bytes L L'; [lia|]. destruct f' as [|f']; [lia|].
  destruct (in_dec N.eq_dec 10%N bytes) as [Hin|Hn].
  - apply in_split in Hin.
    assert (X : exists l rest, bytes = l ++ 10%N :: rest /\ ~ In 10%N l).
    { clear -Hin. destruct Hin as (l & rest & ->). induction l as [|b l IH]; [exists [], rest; auto|]. destruct (N.eq_dec b 10) as [->|N].
      - exists [], (l ++ 10%N :: rest). auto.
      - destruct IH as (l' & rest' & E & H). exists (b :: l'), rest'. cbn [app]. rewrite E. split; [reflexivity|]. intros [->|X]; [congruence|auto]. }
    destruct X as (l & rest & -> & H). rewrite !lines_step by exact H. f_equal. rewrite app_length in L, L'. cbn [length] in L, L'. apply IH; lia.
  - cbn [lines_fuel]. rewrite (read_line_last _ Hn), (ends_line_no _ Hn). cbn [negb]. rewrite andb_true_r.
    destruct broken; [reflexivity|]. destruct bytes as [|b bytes]; [reflexivity|]. cbn [is_nil]. f_equal. cbn [length] in L, L'.
    destruct f as [|f]; [lia|]. destruct f' as [|f']; [lia|]. reflexivity.
Qed.

Lemma lines_cons broken l rest : ~ In 10%N l ->
  lines_with_ending broken (l ++ 10%N :: rest) = from_utf8 (l ++ [10%N]) :: lines_with_ending broken rest.
Proof.
  intros H. unfold lines_with_ending. rewrite lines_step by exact H. f_equal. apply lines_more; rewrite ?app_length; cbn [length]; lia.
Qed.
Lemma lines_last l : l <> [] -> ~ In 10%N l -> lines_with_ending false l = [from_utf8 l].
Proof.
  intros N H. unfold lines_with_ending. cbn [lines_fuel]. rewrite (read_line_last _ H). cbn [andb]. destruct l as [|b l]; [congruence|]. cbn [is_nil length]. f_equal.
Qed.
Lemma lines_broken l : ~ In 10%N l -> lines_with_ending true l = [None].
Proof. intros H. unfold lines_with_ending. cbn [lines_fuel]. rewrite (read_line_last _ H), (ends_line_no _ H). reflexivity. Qed.

Lemma encode_feed l rest : encode_utf8 (l ++ 10%N :: rest) = encode_utf8 l ++ 10%N :: encode_utf8 rest.
Proof. rewrite encode_utf8_app. reflexivity. Qed.

Lemma text_line_ok l : unicode_text l -> unicode_text (l ++ [10%N]).
Proof. intros H. apply Forall_app. split; [exact H|]. repeat constructor. Qed.

(** Complete lines, then any bytes. *)
Lemma lines_front broken : forall ls bytes, Forall (fun l => exists b, l = b ++ [10%N] /\ ~ In 10%N b /\ unicode_text b) ls ->
  lines_with_ending broken (encode_utf8 (concat ls) ++ bytes) = map Some ls ++ lines_with_ending broken bytes.
Proof.
  induction ls as [|l ls IH]; intros bytes F; [reflexivity|]. inversion F as [|? ? (b & -> & Hb & T) F']; subst. cbn [concat map app].
  rewrite <- app_assoc. cbn [app]. rewrite encode_feed, <- app_assoc. cbn [app].
  rewrite (lines_cons broken _ _ (no_feed _ Hb)). rewrite IH by exact F'. f_equal.
  change (encode_utf8 b ++ [10%N]) with (encode_utf8 b ++ encode_utf8 [10%N]). rewrite <- encode_utf8_app. apply from_utf8_encode. apply text_line_ok. exact T.
Qed.

Lemma lines_text s ls : text_lines s ls -> unicode_text s -> lines_with_ending false (encode_utf8 s) = map Some ls.
Proof.
  induction 1 as [|l N H|l rest ls H T IH]; intros TX; [reflexivity| |].
  - rewrite lines_last; [rewrite from_utf8_encode by exact TX; reflexivity| |apply no_feed; exact H].
    destruct l as [|c l]; [congruence|]. cbn [encode_utf8 flat_map]. intros X. apply app_eq_nil in X. destruct X as [X _]. unfold encode_char in X. repeat destruct (_ <? _)%N in X; discriminate.
  - apply Forall_app in TX. destruct TX as [T1 T2]. inversion T2 as [|? ? _ T3]; subst. rewrite encode_feed, lines_cons by (apply no_feed; exact H).
    cbn [map]. rewrite IH by exact T3. f_equal. change (encode_utf8 l ++ [10%N]) with (encode_utf8 l ++ encode_utf8 [10%N]). rewrite <- encode_utf8_app. apply from_utf8_encode. apply text_line_ok. exact T1.
Qed.

Lemma text_lines_exist : forall s, exists ls, text_lines s ls.
Proof.
  assert (X : forall n s, length s <= n -> exists ls, text_lines s ls).
  { induction n as [|n IH]; intros s L; [destruct s; [exists []; constructor|cbn in L; lia]|].
    destruct (in_dec N.eq_dec 10%N s) as [Hin|Hn].
    - assert (Y : exists l rest, s = l ++ 10%N :: rest /\ ~ In 10%N l).
      { clear -Hin. apply in_split in Hin. destruct Hin as (l & rest & ->). induction l as [|b l IH]; [exists [], rest; auto|]. destruct (N.eq_dec b 10) as [->|N].
        - exists [], (l ++ 10%N :: rest). auto.
        - destruct IH as (l' & rest' & E & H). exists (b :: l'), rest'. cbn [app]. rewrite E. split; [reflexivity|]. intros [->|X]; [congruence|auto]. }
      destruct Y as (l & rest & -> & H). rewrite app_length in L. cbn [length] in L. destruct (IH rest) as (ls & T); [lia|]. eexists. apply tl_line; eauto.
    - destruct s as [|c s]; [exists []; constructor|]. exists [c :: s]. apply tl_last; [discriminate|exact Hn]. }
  intros s. exact (X (length s) s (le_n _)).
Qed.

Lemma text_lines_facts s ls : text_lines s ls -> concat ls = s /\ Forall (fun l => l <> []) ls.
Proof.
  induction 1 as [|l N H|l rest ls H T [IH1 IH2]]; [split; [reflexivity|constructor]| |].
  - cbn. rewrite app_nil_r. split; [reflexivity|]. repeat constructor. exact N.
  - cbn [concat]. rewrite IH1, <- app_assoc. split; [reflexivity|]. constructor; [destruct l; discriminate|exact IH2].
Qed.

Lemma shunt_some {A} (l : list A) rest : shunt (map Some l ++ rest) = let (xs, e) := shunt rest in (l ++ xs, e).
Proof. induction l as [|a l IH]; cbn [map app shunt]; [destruct (shunt rest); reflexivity|]. rewrite IH. destruct (shunt rest). reflexivity. Qed.

Lemma files_items {F} (content : F -> file_bytes) files texts lns : Forall2 (has_text content) files texts -> Forall2 text_lines texts lns ->
  flat_map (file_items content) files = map Some (concat lns).
Proof.
  intros H. revert lns. induction H as [|f s files texts [T E] _ IH]; intros lns H2; inversion H2 as [|? l ? lns' HL H3]; subst; [reflexivity|].
  cbn [flat_map concat]. rewrite map_app, (IH _ H3). f_equal. unfold file_items. rewrite E. apply lines_text; assumption.
Qed.

(** ** Counting *)
Lemma reduce_counted words red wc : (forall s, In s (leaves red) -> words s <> Panic) -> reduce words red = Ok wc -> counted words (leaves red) wc.
Proof.
  intros NP E. destruct (C39_counts words red) as (m & E' & D & C).
  - intros s Hs. destruct (words s) as [ws|e|] eqn:EP; [eauto| |exfalso; exact (NP s Hs EP)]. exfalso.
    destruct (proj2 (C39_fails words red NP)) as (e' & X); [eauto|]. congruence.
  - rewrite E in E'. injection E' as <-. split; assumption.
Qed.

Lemma counted_perm words seqs seqs' wc : Permutation seqs seqs' -> counted words seqs wc -> counted words seqs' wc.
Proof.
  intros P [D C]. split; [exact D|]. intros w n. rewrite C, (occurrences_perm words w _ _ P). reflexivity.
Qed.

(** ** Added tokens that are not in a text *)
Lemma longest_none pats s : (forall p i, In (p, i) pats -> ~ inside_text p s) -> longest_at pats s = None.
Proof.
  intros H. pose proof (longest_at_spec pats s) as L. destruct (longest_at pats s) as [[p i]|]; [|reflexivity]. destruct L as (_ & IN & (y & E) & _).
  destruct (H p i IN). exists [], y. exact E.
Qed.

Lemma find_none pats : forall s b, (forall p i, In (p, i) pats -> ~ inside_text p s) -> leftmost_find pats b 0 s = [].
Proof.
  induction s as [|c s IH]; intros b H; [reflexivity|]. cbn [leftmost_find]. rewrite longest_none by exact H. apply IH.
  intros p i Hp (x & y & E). apply (H p i Hp). exists (c :: x), y. rewrite E. reflexivity.
Qed.

Lemma matches_none isp wd av pats s : (forall p i, In (p, i) pats -> ~ inside_text p s) ->
  find_matches isp wd av s (Some pats) = find_matches isp wd av s None.
Proof.
  intros H. unfold find_matches. destruct s as [|c s]; [reflexivity|]. cbn [is_nil]. rewrite (find_none _ _ _ H). cbn [find_loop].
  destruct (0 =? blen (c :: s)) eqn:E; [|reflexivity]. apply Nat.eqb_eq in E. cbn [blen] in E. pose proof (len_utf8_pos c). lia.
Qed.

Lemma unmatched_extract isp wd av norm s : av_ntrie av = None -> (forall pats, av_trie av = Some pats -> forall p i, In (p, i) pats -> ~ inside_text p s) ->
  extract_and_normalize isp wd av norm s = extract_and_normalize isp wd av_new norm s.
Proof.
  intros HN HT. unfold extract_and_normalize. rewrite HN. cbn [av_trie av_ntrie av_new].
  assert (E : forall ns, n_normalized ns = s -> split_with_indices isp wd av (av_trie av) ns = split_with_indices isp wd av_new None ns).
  { intros ns EN. unfold split_with_indices. rewrite EN. destruct (av_trie av) as [pats|] eqn:ET; [|reflexivity]. rewrite (matches_none _ _ _ _ _ (HT pats eq_refl)). reflexivity. }
  assert (E1 : pt_split (fun (_ : nat) (ns : nstring) => split_with_indices isp wd av (av_trie av) ns) (pre_from s) =
               pt_split (fun (_ : nat) (ns : nstring) => split_with_indices isp wd av_new None ns) (pre_from s)).
  { unfold pt_split. cbn [pre_from pre_from_norm pt_splits split_loop sp_tokens sp_norm]. rewrite E; [reflexivity|reflexivity]. }
  rewrite E1. reflexivity.
Qed.

Lemma plain_pairs_from av p i : In (p, i) (plain_pairs av) -> exists t, In (i, t) (av_map_r av) /\ at_content t = p.
Proof.
  unfold plain_pairs. intros H. apply in_flat_map in H. destruct H as ([j t] & Hin & H). cbn [fst snd] in H. destruct (at_normalized t); [destruct H|].
  destruct H as [E|[]]. injection E as <- <-. eauto.
Qed.

(** Adding plain tokens to a tokenizer without added tokens: the patterns are contents of these tokens. *)
Lemma new_tries build m norm ts av n : Forall (fun t => at_normalized t = false) ts -> add_tokens build m norm ts av_new = (av, n) ->
  av_ntrie av = None /\ forall pats, av_trie av = Some pats -> forall p i, In (p, i) pats -> exists t, In t ts /\ at_content t = p.
Proof.
  intros F H. unfold add_tokens in H.
  destruct (SpmTripProofs.loop_offer m norm ts av_new (first_next_id av_new m) 0 [] F) as [E1 E2]; [intros i t []|]. rewrite E1 in H.
  destruct (add_loop m None ts av_new (first_next_id av_new m) 0) as [a1 r1] eqn:EL. destruct (E2 a1 r1 eq_refl) as (RN & O & N1). cbn [app] in O.
  assert (T1 : av_trie a1 = None).
  { clear -EL. assert (X : forall ts a nx k a' r, add_loop m None ts a nx k = (a', r) -> av_trie a' = av_trie a).
    { clear. induction ts as [|t ts IH]; intros a nx k a' r H; cbn [add_loop] in H; [injection H as <- _; reflexivity|].
      destruct (add_one m None t a nx) as [[a1 nx1] b] eqn:E. apply IH in H. rewrite H. unfold add_one in E.
      destruct (is_nil (at_content t)); [injection E as <- _ _; reflexivity|]. match type of E with context [if ?b then _ else _] => destruct b end; [injection E as <- _ _; reflexivity|].
      destruct (av_token_to_id a m (at_content t)); injection E as <- _ _; reflexivity. }
    rewrite (X _ _ _ _ _ _ EL). reflexivity. }
  destruct r1 as [k|]; [|congruence]. destruct (av_refresh build a1) as [a2 ok] eqn:ER. injection H as <- _.
  destruct (SpmTripProofs.refresh_offer _ _ _ _ _ O F N1 ER) as [O2 N2]. split; [exact N2|]. intros pats EP p i HI.
  unfold av_refresh in ER. destruct (is_nil (plain_pairs a1) || build (plain_pairs a1)).
  - assert (EP' : (if is_nil (plain_pairs a1) then None else Some (plain_pairs a1)) = Some pats) by (destruct (is_nil (normalized_pairs a1) || build (normalized_pairs a1)); injection ER as <- _; exact EP).
    destruct (is_nil (plain_pairs a1)); [discriminate|]. injection EP' as <-. destruct (plain_pairs_from _ _ _ HI) as (t & X1 & X2). exists t. split; [eapply O; eauto|exact X2].
  - injection ER as <- _. congruence.
Qed.

(** ** Encoding with answers for all words *)
Lemma tokenize_answered f : forall l answers, Forall (fun sp => sp_tokens sp = None) l -> Forall2 (fun sp a => f (split_text sp) = Ok a) l answers ->
  map_res (tokenize_one (fun ns => f (n_normalized ns))) l = @Ok unit _ (map (fun x => mkSplit (sp_norm (fst x)) (Some (snd x))) (combine l answers)).
Proof.
  intros l answers F H. induction H as [|sp a l answers Ha _ IH]; [reflexivity|]. inversion F as [|? ? F1 F2]; subst. cbn [map_res combine map fst snd]. unfold tokenize_one at 1. rewrite F1.
  unfold split_text in Ha. rewrite Ha. cbn [bind]. rewrite (IH F2). reflexivity.
Qed.

Lemma rows_answered original w ty : forall l answers i, Forall2 (fun (_ : split) (_ : list token) => True) l answers ->
  exists rows, encoding_rows original false w ty i (map (fun x => mkSplit (sp_norm (fst x)) (Some (snd x))) (combine l answers)) = Ok rows /\
    map (fun r : enc_row => (fst (fst (fst (fst r))), snd (fst (fst (fst r))))) rows = map (fun t => (t_id t, t_value t)) (concat answers).
Proof.
  intros l answers i H. revert i. induction H as [|sp a l answers _ _ IH]; intros i; [exists []; auto|]. cbn [combine map encoding_rows sp_tokens sp_norm fst snd of_option bind].
  destruct (IH (i + 1)) as (rows & E & ER).
  assert (X : forall wd, exists rs, map_res (token_row original false wd ty (sp_norm sp)) a = Ok rs /\ map (fun r : enc_row => (fst (fst (fst (fst r))), snd (fst (fst (fst r))))) rs = map (fun t => (t_id t, t_value t)) a).
  { intros wd. clear. induction a as [|t a (rs & E & ER)]; [exists []; auto|]. cbn [map_res]. unfold token_row at 1, token_offsets. cbn [bind]. rewrite E. cbn [bind]. eexists. split; [reflexivity|].
    cbn [map fst snd]. rewrite ER. reflexivity. }
  destruct (X (match w with Some w0 => w0 | None => N.of_nat i end)) as (rs & Ers & Mrs). rewrite Ers. cbn [bind]. rewrite E. cbn [bind]. eexists. split; [reflexivity|].
  rewrite map_app, Mrs, ER. cbn [concat]. rewrite map_app. reflexivity.
Qed.

Lemma splits_of_new isp wd norm s p1 : extract_and_normalize isp wd av_new norm s = Ok p1 -> Forall (fun sp => sp_tokens sp = None) (pt_splits p1).
Proof.
  unfold extract_and_normalize. intros H. apply bind_ok in H. destruct H as (p0 & H0 & H1). cbn [av_trie av_ntrie av_new] in *.
  assert (S : forall ns new, split_with_indices isp wd av_new None ns = Ok new -> Forall (fun sp => sp_tokens sp = None) new).
  { intros ns new E. unfold split_with_indices in E. apply bind_ok in E. destruct E as (ms & E1 & E2). apply map_res_ok in E2.
    assert (M : Forall (fun m => fst m = None) ms) by (unfold find_matches in E1; destruct (is_nil (n_normalized ns)); injection E1 as <-; repeat constructor).
    clear E1. induction E2 as [|m sp ms new E _ IH]; [constructor|]. inversion M as [|? ? M1 M2]; subst. constructor; [|auto].
    unfold token_split in E. destruct (n_slice ns _); try discriminate. injection E as <-. rewrite M1. reflexivity. }
  assert (P : forall (g : nstring -> nstring) p q, Forall (fun sp => sp_tokens sp = None) (pt_splits p) ->
     pt_split (fun (_ : nat) ns => split_with_indices isp wd av_new None (g ns)) p = Ok q -> Forall (fun sp => sp_tokens sp = None) (pt_splits q)).
  { intros g p q F E. unfold pt_split in E. apply bind_ok in E. destruct E as (l & E & X). injection X as <-. cbn [pt_splits]. revert l E. generalize 0 as k.
    induction F as [|sp l0 F1 _ IH]; intros k l E; cbn [split_loop] in E; [injection E as <-; constructor|]. rewrite F1 in E.
    apply bind_ok in E. destruct E as (new & E1 & E). apply bind_ok in E. destruct E as (r & E2 & E). injection E as <-. apply Forall_app. split; [|exact (IH _ _ E2)].
    unfold keep_nonempty. pose proof (S _ _ E1) as G. rewrite Forall_forall in *. intros x Hx. apply filter_In in Hx. apply G. apply Hx. }
  apply (P norm p0 p1); [|exact H1]. apply (P (fun ns => ns) (pre_from s) p0); [repeat constructor|exact H0].
Qed.

Lemma encode_answered t g av s ws ty answers :
  tz_added t = av_new -> only_cuts t -> tz_truncation t = None ->
  extract_and_normalize (tz_space t) (tz_word t) av (tz_normalizer t) s = extract_and_normalize (tz_space t) (tz_word t) av_new (tz_normalizer t) s ->
  training_words t s = Ok ws -> Forall2 (fun w a => g w = Ok a) ws answers ->
  exists e, encode_single (with_added (with_model t g) av) (Raw s) ty OByte = Ok e /\ ids e = map t_id (concat answers) /\ tokens e = map t_value (concat answers).
Proof.
  intros HA OC HT HE HW F. apply words_steps in HW. rewrite HA in HW. destruct HW as (p1 & p2 & E1 & E2 & ->).
  pose proof (splits_of_new _ _ _ _ _ E1) as N1. assert (E1' : extract_and_normalize (tz_space t) (tz_word t) (tz_added t) (tz_normalizer t) s = Ok p1) by (rewrite HA; exact E1). pose proof (OC _ _ _ E1' N1 E2) as N2.
  cbn [encode_single]. unfold encode_part, do_pre_tokenize, do_tokenize, token_limit. cbn [tz_space tz_word tz_added tz_normalizer tz_pre_tokenizer tz_truncation with_added with_model].
  rewrite HE, E1. cbn [bind]. unfold do_pre_tokenize in E2. rewrite E2. cbn [bind]. rewrite HT. unfold tokenize_in. cbn [tz_model with_added with_model].
  assert (F' : Forall2 (fun sp a => g (split_text sp) = Ok a) (pt_splits p2) answers).
  { clear -F. remember (map split_text (pt_splits p2)) as ws eqn:E. revert E. generalize (pt_splits p2) as l. induction F as [|w a ws answers H _ IH]; intros [|sp l] E; try discriminate; [constructor|]. injection E as -> E. constructor; [exact H|auto]. }
  unfold pt_tokenize. rewrite (tokenize_answered g _ _ N2 F'). cbn [bind]. unfold into_encoding. cbn [pt_splits pt_original].
  assert (TR : Forall2 (fun (_ : split) (_ : list token) => True) (pt_splits p2) answers) by (clear -F'; induction F'; constructor; auto).
  assert (HT2 : forallb has_tokens (map (fun x => mkSplit (sp_norm (fst x)) (Some (snd x))) (combine (pt_splits p2) answers)) = true).
  { apply forallb_forall. intros x Hx. apply in_map_iff in Hx. destruct Hx as (y & <- & _). reflexivity. }
  destruct (pt_splits p2) as [|sp0 l0] eqn:EL.
  - inversion F'; subst. cbn. eexists. split; [reflexivity|]. split; reflexivity.
  - inversion F' as [|? a0 ? as0 FA FB]; subst. rewrite HT2. cbn [negb is_nil combine map].
    destruct (rows_answered (pt_original p2) None ty (sp0 :: l0) (a0 :: as0) 0 TR) as (rows & E & ER). cbn [combine map] in E. rewrite E. cbn [bind]. eexists. split; [reflexivity|].
    unfold from_rows. cbn [ids tokens]. split.
    + transitivity (map fst (map (fun r : enc_row => (fst (fst (fst (fst r))), snd (fst (fst (fst r))))) rows)); [rewrite map_map; apply map_ext; intros [[[[? ?] ?] ?] ?]; reflexivity|]. rewrite ER, map_map. reflexivity.
    + transitivity (map snd (map (fun r : enc_row => (fst (fst (fst (fst r))), snd (fst (fst (fst r))))) rows)); [rewrite map_map; apply map_ext; intros [[[[? ?] ?] ?] ?]; reflexivity|]. rewrite ER, map_map. reflexivity.
Qed.

(** ** Answers for all words are enough *)
Lemma limit_answered {E} (f : nstring -> res E (list token)) mx : forall l total, (forall sp, In sp l -> exists a, f (sp_norm sp) = Ok a) ->
  exists l', limit_loop f mx total l = Ok l' /\ forallb has_tokens l' = true.
Proof.
  induction l as [|sp l IH]; intros total H; [exists []; auto|]. cbn [limit_loop].
  assert (G : forall k, exists l', limit_loop f mx k l = Ok l' /\ forallb has_tokens l' = true) by (intros k; apply IH; intros x Hx; apply H; right; exact Hx).
  destruct (sp_tokens sp) as [ts|] eqn:ET.
  - destruct (G (total + length ts)) as (l' & -> & HT). cbn [bind]. eexists. split; [reflexivity|]. cbn [forallb]. unfold has_tokens at 1. rewrite ET, HT. reflexivity.
  - destruct (H sp (or_introl eq_refl)) as (a & ->). cbn [bind]. destruct (mx <=? total + length a); [eexists; split; [reflexivity|]; reflexivity|].
    destruct (G (total + length a)) as (l' & -> & HT). cbn [bind]. eexists. split; [reflexivity|]. cbn [forallb]. rewrite HT. reflexivity.
Qed.

Lemma tokenize_total t f lim pt : (forall sp, In sp (pt_splits pt) -> exists a, f (split_text sp) = Ok a) ->
  exists pt', tokenize_in (with_model t f) lim pt = Ok pt' /\ forallb has_tokens (pt_splits pt') = true.
Proof.
  intros H. unfold tokenize_in. cbn [tz_model with_model].
  assert (G : forall sp, In sp (pt_splits pt) -> exists a, (fun ns => f (n_normalized ns)) (sp_norm sp) = Ok a) by exact H.
  destruct lim as [[mx d]|].
  - unfold pt_tokenize_with_limit. destruct d.
    + destruct (limit_answered (fun ns => f (n_normalized ns)) mx (rev (pt_splits pt)) 0) as (l' & -> & HT); [intros sp Hs; apply G; apply in_rev; exact Hs|].
      cbn [bind]. eexists. split; [reflexivity|]. cbn [pt_splits]. rewrite forallb_forall in *. intros x Hx. apply HT. apply in_rev. exact Hx.
    + destruct (limit_answered (fun ns => f (n_normalized ns)) mx (pt_splits pt) 0 G) as (l' & -> & HT). cbn [bind]. eexists. split; [reflexivity|exact HT].
  - unfold pt_tokenize. clear H. induction (pt_splits pt) as [|sp l IH]; [eexists; split; reflexivity|]. cbn [map_res].
    destruct IH as (pt' & E & HT); [intros x Hx; apply G; right; exact Hx|]. apply bind_ok in E. destruct E as (l' & E & X). injection X as <-. cbn [pt_splits] in HT.
    unfold tokenize_one at 1. destruct (sp_tokens sp) as [ts|] eqn:ET.
    + cbn [bind]. rewrite E. cbn [bind]. eexists. split; [reflexivity|]. cbn [pt_splits forallb]. unfold has_tokens at 1. rewrite ET, HT. reflexivity.
    + destruct (G sp (or_introl eq_refl)) as (a & EA). cbv beta in EA. rewrite EA. cbn [bind]. rewrite E. cbn [bind]. eexists. split; [reflexivity|]. cbn [pt_splits forallb]. rewrite HT. reflexivity.
Qed.

Lemma byte_rows original w ty : forall l i, forallb has_tokens l = true -> exists rows, encoding_rows original false w ty i l = Ok rows.
Proof.
  induction l as [|sp l IH]; intros i H; [exists []; reflexivity|]. cbn [forallb] in H. apply andb_true_iff in H. destruct H as [H1 H2]. unfold has_tokens in H1. cbn [encoding_rows].
  destruct (sp_tokens sp) as [ts|]; [|discriminate]. cbn [of_option bind].
  assert (X : forall wd, exists rs, map_res (token_row original false wd ty (sp_norm sp)) ts = Ok rs).
  { intros wd. clear. induction ts as [|t ts (rs & E)]; [exists []; reflexivity|]. cbn [map_res]. unfold token_row at 1, token_offsets. cbn [bind]. rewrite E. cbn [bind]. eauto. }
  destruct (X (match w with Some w0 => w0 | None => N.of_nat i end)) as (rs & ->). cbn [bind]. destruct (IH (i + 1) H2) as (rows & ->). cbn [bind]. eauto.
Qed.

Lemma encode_total t f ty s ws : training_words t s = Ok ws -> (forall w, In w ws -> exists a, f w = Ok a) ->
  exists e, encode_single (with_model t f) (Raw s) ty OByte = Ok e.
Proof.
  intros HW H. apply words_steps in HW. destruct HW as (p1 & p2 & E1 & E2 & ->). cbn [encode_single]. unfold encode_part, do_pre_tokenize, do_tokenize in *.
  cbn [tz_space tz_word tz_added tz_normalizer tz_pre_tokenizer with_model]. rewrite E1. cbn [bind]. unfold do_pre_tokenize in E2. rewrite E2. cbn [bind].
  destruct (tokenize_total t f (token_limit (with_model t f) ty) p2) as (p3 & -> & HT); [intros sp Hs; apply H; apply in_map; exact Hs|]. cbn [bind].
  unfold into_encoding. destruct (is_nil (pt_splits p3)); [eauto|]. rewrite HT. cbn [negb]. destruct (byte_rows (pt_original p3) None ty (pt_splits p3) 0 HT) as (rows & ->). cbn [bind]. eauto.
Qed.

Lemma encode_needs t f ty ot s e : encode_single (with_model t f) (Raw s) ty ot = Ok e -> exists ws, training_words t s = Ok ws.
Proof.
  cbn [encode_single]. unfold encode_part. intros H. apply bind_ok in H. destruct H as (p1 & E1 & H). apply bind_ok in H. destruct H as (p2 & E2 & _).
  exists (map split_text (pt_splits p2)). apply words_steps. exists p1, p2. auto.
Qed.

(** ** Counted tables *)
Lemma counted_same words seqs wc wc' : counted words seqs wc -> counted words seqs wc' -> Permutation wc wc'.
Proof.
  intros [D1 C1] [D2 C2]. apply NoDup_Permutation.
  - eapply NoDup_map_inv; exact D1.
  - eapply NoDup_map_inv; exact D2.
  - intros [w n]. rewrite C1, C2. reflexivity.
Qed.

Lemma counted_word words seqs wc s ws w : counted words seqs wc -> In s seqs -> words s = Ok ws -> In w ws -> exists n, In (w, n) wc.
Proof.
  intros [_ C] Hs E Hw. exists (N.of_nat (occurrences words w seqs)). apply C. split; [reflexivity|]. unfold occurrences.
  assert (X : 0 < list_sum (map (fun s => match words s with Ok ws => count_occ (list_eq_dec N.eq_dec) ws w | _ => 0 end) seqs)); [|lia].
  clear C. induction seqs as [|s' seqs IH]; [destruct Hs|]. cbn [map list_sum fold_right]. fold (list_sum (map (fun s => match words s with Ok ws => count_occ (list_eq_dec N.eq_dec) ws w | _ => 0 end) seqs)).
  destruct Hs as [->|Hs]; [|specialize (IH Hs); lia]. rewrite E. apply (count_occ_In (list_eq_dec N.eq_dec)) in Hw. lia.
Qed.
