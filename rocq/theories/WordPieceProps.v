(** C40, C41: WordPiece is greedy, WordLevel is total. *)
From Verif Require Import Base StrBytes ListFacts AMap EncodingModel BpeModel WordPieceModel WordPieceSpec.

Lemma entry_start prefix pre x : (if 0 <? blen pre then prefix ++ x else x) = entry prefix pre x.
Proof. destruct pre as [|c pre]; [reflexivity|]. cbn [blen entry]. pose proof (len_utf8_pos c). replace (0 <? _) with true by (symmetry; apply Nat.ltb_lt; lia). reflexivity. Qed.

Lemma entry_last prefix pre x c : exists l, rev (entry prefix pre (x ++ [c])) = c :: l.
Proof. unfold entry. destruct pre; [|rewrite app_assoc]; rewrite rev_app_distr; cbn; eauto. Qed.


Definition unknown_from (m : wordpiece) (pre rest : str) : Prop :=
  forall y z, rest = y ++ z -> y <> [] -> ~ known (w_vocab m) (entry (w_prefix m) pre y).

Lemma wp_match_spec m pre : forall fuel x post, length x < fuel ->
  (forall y z, x ++ post = y ++ z -> y <> [] -> known (w_vocab m) (entry (w_prefix m) pre y) -> length y <= length x) ->
  (wp_match fuel m (pre ++ x ++ post) (blen pre) (blen pre + blen x) = Ok None /\ unknown_from m pre (x ++ post)) \/
  (exists y z id, x ++ post = y ++ z /\ longest (w_vocab m) (w_prefix m) pre (y ++ z) y /\
     aget str_eqb (entry (w_prefix m) pre y) (w_vocab m) = Some id /\
     wp_match fuel m (pre ++ x ++ post) (blen pre) (blen pre + blen x) =
       Ok (Some (mkTok id (entry (w_prefix m) pre y) (blen pre, blen pre + blen y), blen pre + blen y))).
Proof.
  induction fuel as [|fuel IH]; intros x post HF HL; [lia|]. cbn [wp_match].
  destruct (exists_last_or_nil x) as [->|(x' & c & ->)].
  - cbn [blen app]. rewrite Nat.add_0_r, Nat.ltb_irrefl. left. split; [reflexivity|]. intros y z E N K. specialize (HL y z E N K). cbn in HL. destruct y; [congruence|cbn in HL; lia].
  - set (x := x' ++ [c]) in *. assert (LX : 1 <= blen x) by (unfold x; rewrite blen_app; cbn; pose proof (len_utf8_pos c); lia).
    replace (blen pre <? blen pre + blen x) with true by (symmetry; apply Nat.ltb_lt; lia).
    rewrite str_get_app. cbn [of_option bind]. rewrite entry_start.
    destruct (aget str_eqb (entry (w_prefix m) pre x) (w_vocab m)) as [id|] eqn:EA.
    + right. exists x, post, id. split; [reflexivity|]. split; [|auto]. split; [unfold x; destruct x'; discriminate|]. split; [eauto|]. split; [exists id; exact EA|]. exact HL.
    + destruct (entry_last (w_prefix m) pre x' c) as (l & El). unfold x. rewrite El.
      rewrite blen_app. cbn [blen]. replace (blen pre + (blen x' + (len_utf8 c + 0)) <? len_utf8 c) with false by (symmetry; apply Nat.ltb_ge; lia).
      replace (blen pre + (blen x' + (len_utf8 c + 0)) - len_utf8 c) with (blen pre + blen x') by lia.
      assert (EX : (x' ++ [c]) ++ post = x' ++ (c :: post)) by (rewrite <- app_assoc; reflexivity). rewrite EX.
      apply IH; [unfold x in HF; rewrite app_length in HF; cbn in HF; lia|].
      intros y z E N K. unfold x in HL. rewrite EX in HL. pose proof (HL y z E N K) as L. rewrite app_length in L. cbn in L.
      destruct (Nat.eq_dec (length y) (length x' + 1)) as [EL|]; [|lia]. exfalso.
      rewrite <- EX in E. apply app_split_len in E; [|rewrite app_length; cbn; lia]. destruct E as [<- _]. destruct K as [id K]. unfold x in EA. congruence.
Qed.

Lemma wp_loop_spec m : forall fuel pre rest acc, length rest < fuel ->
  (exists xs toks, greedy (w_vocab m) (w_prefix m) pre rest xs /\ tokens_of (w_vocab m) (w_prefix m) pre xs toks /\
     wp_loop fuel m (pre ++ rest) (blen pre) acc = Ok (Some (acc ++ toks))) \/
  ((forall xs, ~ greedy (w_vocab m) (w_prefix m) pre rest xs) /\ wp_loop fuel m (pre ++ rest) (blen pre) acc = Ok None).
Proof.
  induction fuel as [|fuel IH]; intros pre rest acc HF; [lia|]. cbn [wp_loop]. rewrite blen_app. destruct rest as [|c rest0].
  - cbn [blen]. rewrite Nat.add_0_r, Nat.ltb_irrefl. left. exists [], []. split; [constructor|]. split; [exact I|]. rewrite app_nil_r. reflexivity.
  - set (rest := c :: rest0) in *. assert (LR : 1 <= blen rest) by (cbn; pose proof (len_utf8_pos c); lia).
    replace (blen pre <? blen pre + blen rest) with true by (symmetry; apply Nat.ltb_lt; lia).
    assert (LEN : length rest < S (blen pre + blen rest)).
    { clear. enough (length rest <= blen rest) by lia. induction rest as [|a r IH]; cbn; [lia|]. pose proof (len_utf8_pos a). lia. }
    pose proof (wp_match_spec m pre (S (blen pre + blen rest)) rest [] LEN) as W. rewrite app_nil_r in W.
    destruct W as [[EW U]|(y & z & id & E & L & EA & EW)].
    { intros y z E _ _. rewrite E, app_length. lia. }
    + right. rewrite EW. cbn [bind]. split; [|reflexivity]. intros xs G. inversion G as [|? x r xs' [N (_ & K & _)] _ E1 E2]; subst. eapply U; [symmetry; exact E2|exact N|exact K].
    + rewrite EW. cbn [bind]. assert (LY : length z < fuel).
      { destruct L as [N _]. destruct y; [congruence|]. rewrite E, app_length in HF. cbn in HF. lia. }
      specialize (IH (pre ++ y) z (acc ++ [mkTok id (entry (w_prefix m) pre y) (blen pre, blen pre + blen y)]) LY). rewrite blen_app, <- app_assoc, <- E in IH.
      destruct IH as [(xs & toks & G & T & EL)|[U EL]]; rewrite EL.
      * left. exists (y :: xs), (mkTok id (entry (w_prefix m) pre y) (blen pre, blen pre + blen y) :: toks). split; [rewrite E; constructor; assumption|].
        split; [cbn; auto|]. rewrite <- app_assoc. reflexivity.
      * right. split; [|reflexivity]. intros xs G. rewrite E in G. inversion G as [? E2 E3|? x r xs' LX G' E1 E2 E3].
        { destruct L as [N _]. destruct y; [congruence|discriminate]. }
        subst. assert (EY : x = y).
        { destruct LX as (N1 & (r1 & R1) & K1 & M1), L as (N2 & (r2 & R2) & K2 & M2).
          assert (length x <= length y) by (apply (M2 x r); [symmetry; exact E2|exact N1|exact K1]).
          assert (length y <= length x) by (apply (M1 y z); [exact E2|exact N2|exact K2]).
          apply app_split_len in E2; [tauto|lia]. }
        subst x. apply app_inv_head in E2. subst r. eapply U. exact G'.
Qed.

(** No other segmentation is greedy. *)
Theorem C40_unique : forall vocab prefix pre s xs ys, greedy vocab prefix pre s xs -> greedy vocab prefix pre s ys -> xs = ys.
Proof.
  intros vocab prefix pre s xs ys G. revert ys. induction G as [pre|pre x rest xs L G IH]; intros ys H.
  - inversion H as [|? x r xs' [N _] _]; subst; [reflexivity|]. destruct x; [congruence|discriminate].
  - inversion H as [? E2 E3|? y r xs' LY G' E1 E2 E3]; subst.
    + destruct L as [N _]. destruct x; [congruence|discriminate].
    + assert (E : y = x).
      { destruct L as (N1 & _ & K1 & M1), LY as (N2 & _ & K2 & M2).
        assert (length y <= length x) by (apply (M1 y r); [symmetry; exact E2|exact N2|exact K2]).
        assert (length x <= length y) by (apply (M2 x rest); [exact E2|exact N1|exact K1]).
        apply app_split_len in E2; [tauto|lia]. }
      subst y. apply app_inv_head in E2. subst r. f_equal. apply IH. exact G'.
Qed.

(** If the word is not too long and can be cut greedily, the tokens are its pieces. *)
Theorem C40_pieces : forall m s xs,
  length s <= w_max m -> greedy (w_vocab m) (w_prefix m) [] s xs ->
  exists toks, wp_tokenize m s = Ok toks /\ tokens_of (w_vocab m) (w_prefix m) [] xs toks.
Proof.
  intros m s xs HL G. unfold wp_tokenize. replace (w_max m <? length s) with false by (symmetry; apply Nat.ltb_ge; exact HL).
  assert (LEN : length s < S (blen s)).
  { clear. enough (length s <= blen s) by lia. induction s as [|a r IH]; cbn; [lia|]. pose proof (len_utf8_pos a). lia. }
  destruct (wp_loop_spec m (S (blen s)) [] s [] LEN) as [(ys & toks & G' & T & E)|[U E]]; cbn [app blen] in E; rewrite E; cbn [bind].
  - rewrite (C40_unique _ _ _ _ _ _ G G'). eauto.
  - exfalso. eapply U. exact G.
Qed.

(** Otherwise there is one unknown token over the whole word, or an error when
    the vocabulary does not have it. *)
Theorem C40_unknown : forall m s,
  w_max m < length s \/ (forall xs, ~ greedy (w_vocab m) (w_prefix m) [] s xs) ->
  wp_tokenize m s =
    match aget str_eqb (w_unk m) (w_vocab m) with
    | Some id => Ok [mkTok id (w_unk m) (0, blen s)]
    | None => Err EMissingUnk
    end.
Proof.
  intros m s H. unfold wp_tokenize. destruct (Nat.ltb_spec (w_max m) (length s)) as [L|L]; [reflexivity|]. destruct H as [H|H]; [lia|].
  assert (LEN : length s < S (blen s)).
  { clear. enough (length s <= blen s) by lia. induction s as [|a r IH]; cbn; [lia|]. pose proof (len_utf8_pos a). lia. }
  destruct (wp_loop_spec m (S (blen s)) [] s [] LEN) as [(ys & toks & G' & T & E)|[U E]]; cbn [app blen] in E; rewrite E; cbn [bind]; [|reflexivity].
  exfalso. eapply H. exact G'.
Qed.

(** Whether a word can be cut is decided, so the two theorems cover every word. *)
Theorem C40_cases : forall m s, (exists xs, greedy (w_vocab m) (w_prefix m) [] s xs) \/ (forall xs, ~ greedy (w_vocab m) (w_prefix m) [] s xs).
Proof.
  intros m s.
  assert (LEN : length s < S (blen s)).
  { clear. enough (length s <= blen s) by lia. induction s as [|a r IH]; cbn; [lia|]. pose proof (len_utf8_pos a). lia. }
  destruct (wp_loop_spec m (S (blen s)) [] s [] LEN) as [(ys & toks & G' & T & E)|[U E]]; eauto.
Qed.

(** It never panics and fails only for want of the unknown token. *)
Theorem C40_total : forall m s,
  (exists toks, wp_tokenize m s = Ok toks) \/
  (wp_tokenize m s = Err EMissingUnk /\ aget str_eqb (w_unk m) (w_vocab m) = None).
Proof.
  intros m s. destruct (Nat.lt_ge_cases (w_max m) (length s)) as [L|L].
  - rewrite C40_unknown by auto. destruct (aget str_eqb (w_unk m) (w_vocab m)); eauto.
  - destruct (C40_cases m s) as [[xs G]|U].
    + destruct (C40_pieces m s xs L G) as (toks & E & _). eauto.
    + rewrite C40_unknown by auto. destruct (aget str_eqb (w_unk m) (w_vocab m)); eauto.
Qed.

(** The pieces are the word, and every token's range is where its piece is. *)
Theorem C40_cover : forall vocab prefix pre s xs, greedy vocab prefix pre s xs -> concat xs = s /\ Forall (fun x => x <> []) xs.
Proof.
  intros vocab prefix pre s xs G. induction G as [|pre x rest xs L G [IH1 IH2]]; cbn; [auto|]. rewrite IH1. split; [reflexivity|]. constructor; [apply L|exact IH2].
Qed.

(** unaffable: un ##aff ##able; unzable: no piece for z. *)
Definition ex_wp : wordpiece :=
  mkWP [([91; 93], 0); ([117; 110], 1); ([35; 35; 97], 2); ([35; 35; 97; 233], 3); ([35; 35; 98], 4); ([117], 5)]%N [91; 93]%N [35; 35]%N 6.

Example C40_ex1 : exists toks, wp_tokenize ex_wp [117; 110; 97; 233; 98]%N = Ok toks /\ map t_id toks = [1; 3; 4]%N /\ map t_offsets toks = [(0, 2); (2, 5); (5, 6)].
Proof. eexists. split; [vm_compute; reflexivity|split; reflexivity]. Qed.
Example C40_ex2 : wp_tokenize ex_wp [117; 110; 122]%N = Ok [mkTok 0%N [91; 93]%N (0, 3)].
Proof. reflexivity. Qed.
Example C40_ex3 : greedy (w_vocab ex_wp) (w_prefix ex_wp) [] [117; 110; 97; 233; 98]%N [[117; 110]; [97; 233]; [98]]%N.
Proof.
  destruct (C40_cases ex_wp [117; 110; 97; 233; 98]%N) as [[xs G]|U].
  - destruct (C40_pieces ex_wp [117; 110; 97; 233; 98]%N xs ltac:(unfold ex_wp; cbn; lia) G) as (toks & E & T). vm_compute in E. injection E as <-.
    destruct xs as [|a [|b [|c [|]]]]; cbn in T; try tauto. destruct T as (_ & V1 & _ & _ & V2 & _ & _ & V3 & _).
    destruct (C40_cover _ _ _ _ _ G) as [CC F]. inversion F as [|? ? Na F1]; inversion F1 as [|? ? Nb F2]; inversion F2 as [|? ? Nc F3]; clear F F1 F2 F3; cbn in V1; subst a.
    cbn in V2, V3. injection V2 as <-. injection V3 as <-. exact G.
  - pose proof (C40_unknown ex_wp _ (or_intror U)) as E. vm_compute in E. discriminate.
Qed.

(** ** WordLevel *)

(** One token over the word: its own if the word is known, else the unknown one;
    an error exactly when neither is in the vocabulary. *)
Theorem C41_total : forall m s,
  (forall id, wl_token_to_id m s = Some id -> wl_tokenize m s = Ok [mkTok id s (0, blen s)]) /\
  (forall id, wl_token_to_id m s = None -> wl_token_to_id m (l_unk m) = Some id -> wl_tokenize m s = Ok [mkTok id (l_unk m) (0, blen s)]) /\
  (wl_token_to_id m s = None -> wl_token_to_id m (l_unk m) = None -> wl_tokenize m s = Err EMissingUnk).
Proof.
  intros m s. unfold wl_tokenize, wl_token_to_id. repeat split.
  - intros id ->. reflexivity.
  - intros id -> ->. reflexivity.
  - intros -> ->. reflexivity.
Qed.

Theorem C41_one_token : forall m s toks, wl_tokenize m s = Ok toks -> exists t, toks = [t] /\ t_offsets t = (0, blen s) /\ wl_token_to_id m (t_value t) = Some (t_id t).
Proof.
  intros m s toks. unfold wl_tokenize, wl_token_to_id. destruct (aget str_eqb s (l_vocab m)) as [id|] eqn:E; [intros H; injection H as <-; eauto|].
  destruct (aget str_eqb (l_unk m) (l_vocab m)) as [id|] eqn:E2; [intros H; injection H as <-; eauto|discriminate].
Qed.

Example C41_ex : let m := mkWL [([97], 0); ([63], 1)]%N [63]%N in
  wl_tokenize m [97]%N = Ok [mkTok 0%N [97]%N (0, 1)] /\ wl_tokenize m [98; 99]%N = Ok [mkTok 1%N [63]%N (0, 2)] /\
  wl_tokenize (mkWL [] [63]%N) [97]%N = Err EMissingUnk.
Proof. repeat split. Qed.
