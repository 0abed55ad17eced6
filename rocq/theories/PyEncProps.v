(** C103: encodings as Python objects. *)
From Coq Require Import ZArith String Permutation.
From Verif Require Import Base StrBytes ListFacts AMap EncodingModel EncodingSpec EncodingProofs EncodingProofs2 EncodingProofs3 EncodingProps ModelFilesModel ComponentFilesModel PyModelModel PyModelSpec PyModelProofs PyEncModel PyEncSpec PyEncProofs.

(** [pad] takes its arguments by name, those left out have their documented defaults,
    and names it does not know are ignored. *)
Theorem C103_pad : forall W (e e' : encoding) (length : arg W) kw, NoDup (map fst kw) ->
  (py_pad length kw e = Ok e' <->
   exists n d i t k, is_position length n /\
     kw_says is_side kw "direction" DRight d /\ kw_says is_u32 kw "pad_id" 0%N i /\
     kw_says is_u32 kw "pad_type_id" 0%N t /\ kw_says is_text kw "pad_token" (key "[PAD]") k /\
     e' = pad n i t k d e).
Proof.
  intros W e e' len kw ND. unfold py_pad. split.
  - destruct (arg_nat len) as [n|?|] eqn:E; cbn [bind]; try discriminate. destruct (each_kwarg pad_kwarg pad_args0 kw) as [c|?|] eqn:K; cbn [bind]; try discriminate. intros H. injection H as <-.
    apply position_read in E. apply (pad_kwargs_say kw ND) in K. destruct c as [d i t k]. unfold pad_says in K. cbn in K. destruct K as (K1 & K2 & K3 & K4). exists n, d, i, t, k. auto 10.
  - intros (n & d & i & t & k & H & K1 & K2 & K3 & K4 & ->). apply position_read in H. rewrite H. cbn [bind].
    rewrite (proj2 (pad_kwargs_say kw ND pad_args0 (mkPA d i t k)) (conj K1 (conj K2 (conj K3 K4)))). reflexivity.
Qed.

(** What it does: every table reaches the length asked for, with the pad token asked
    for on the side asked for. *)
Theorem C103_padded : forall W (e e' : encoding) (length : arg W) kw, NoDup (map fst kw) -> parallel e ->
  py_pad length kw e = Ok e' ->
  exists n d i t k, is_position length n /\
    kw_says is_side kw "direction" DRight d /\ kw_says is_u32 kw "pad_id" 0%N i /\
    kw_says is_u32 kw "pad_type_id" 0%N t /\ kw_says is_text kw "pad_token" (key "[PAD]") k /\
    padded n (pad_row i t k) d e e' /\ parallel e' /\ enc_len e' = Nat.max n (enc_len e).
Proof.
  intros W e e' len kw ND P H. apply C103_pad in H; [|exact ND]. destruct H as (n & d & i & t & k & H & K1 & K2 & K3 & K4 & ->).
  exists n, d, i, t, k. destruct (C04_pad_content n i t k d e P) as (A & B & C). auto 12.
Qed.

(** It never panics; [ValueError] is raised only for a direction that is no side. *)
Theorem C103_pad_errors : forall W (e : encoding) (length : arg W) kw,
  match py_pad length kw e with
  | Ok _ => True
  | Err PType => True
  | Err PValue => exists s, In (key "direction", AStr s) kw /\ s <> key "left" /\ s <> key "right"
  | Err PInit | Panic => False
  end.
Proof.
  intros W e len kw. unfold py_pad, arg_nat.
  assert (U : match arg_usize len with Ok _ => True | Err x => x = PType | Panic => False end) by (destruct len as [|b|z|w|s|]; cbn [arg_usize]; auto; destruct (Z.leb 0 z && Z.ltb z (2 ^ 64)); auto).
  destruct (arg_usize len) as [n|x|]; cbn [bind]; [|rewrite U; exact Logic.I|exact U].
  destruct (each_kwarg pad_kwarg pad_args0 kw) as [c|x|] eqn:K; cbn [bind]; [exact Logic.I| |exact (pad_kwargs_panic _ _ K)].
  destruct (pad_kwargs_fail _ _ _ K) as [->|(-> & H)]; [exact Logic.I|exact H].
Qed.

(** [truncate]: no stride and the right side by default. *)
Theorem C103_truncate : forall W (e : encoding) (max_length : arg W) stride side m s d, same_lengths e ->
  is_position max_length m -> default_or is_position 0 stride s -> default_or is_side DRight side d ->
  (enc_len e <= m -> py_truncate max_length stride side e = Ok e) /\
  (m = 0 -> 0 < enc_len e -> exists e', py_truncate max_length stride side e = Ok e' /\ rows e' = [] /\ overflowing e' = [e]) /\
  (0 < m -> m < enc_len e -> s < m ->
   exists e', py_truncate max_length stride side e = Ok e' /\
     match d with
     | DRight => tiles m s (rows e) (map rows (e' :: overflowing e'))
     | DLeft => tiles_from_end m s (rows e) (map rows (e' :: overflowing e'))
     end) /\
  (0 < m -> m < enc_len e -> m <= s -> py_truncate max_length stride side e = Panic).
Proof.
  intros W e mx st sd m s d SL H1 H2 H3. apply position_read in H1. apply (or_read arg_nat is_position 0 st s position_read) in H2. apply (or_read arg_side is_side DRight sd d side_read) in H3.
  unfold py_truncate. rewrite H1. cbn [bind]. rewrite H2. cbn [bind]. rewrite H3. cbn [bind].
  split; [intros L; rewrite (C01_truncate_fits e m s d L); reflexivity|]. split.
  { intros -> L. destruct (C01_truncate_zero e s d L) as (e' & E & R). rewrite E. exists e'. split; [reflexivity|exact R]. }
  split.
  - intros L1 L2 L3. destruct (C01_truncate_windows e m s d SL L1 L2 L3) as (e' & E & _ & _ & T). rewrite E. exists e'. split; [reflexivity|exact T].
  - intros L1 L2 L3. rewrite (proj2 (C03_truncate_panics_iff e m s d SL) (conj L1 (conj L2 L3))). reflexivity.
Qed.

(** Anything else is refused, with [ValueError] only for a text that is no side. *)
Theorem C103_truncate_errors : forall W (e : encoding) (max_length : arg W) stride side,
  match py_truncate max_length stride side e with
  | Err PType => ~ (exists m s d, is_position max_length m /\ default_or is_position 0 stride s /\ default_or is_side DRight side d)
  | Err PValue => exists t, side = Some (AStr t) /\ t <> key "left" /\ t <> key "right"
  | Err PInit => False
  | Ok _ | Panic => exists m s d, is_position max_length m /\ default_or is_position 0 stride s /\ default_or is_side DRight side d
  end.
Proof.
  intros W e mx st sd. unfold py_truncate.
  assert (U : forall a : arg W, match arg_nat a with Ok _ => True | Err x => x = PType | Panic => False end) by (intros [|b|z|w|s|]; unfold arg_nat; cbn [arg_usize bind]; auto; destruct (Z.leb 0 z && Z.ltb z (2 ^ 64)); cbn [bind]; auto).
  pose proof (U mx) as U1. destruct (arg_nat mx) as [m|x|] eqn:E1; cbn [bind]; [|subst x; intros (m & s & d & H & _); apply position_read in H; congruence|destruct U1].
  assert (U2 : match arg_or arg_nat 0 st with Ok _ => True | Err x => x = PType | Panic => False end) by (destruct st as [a|]; cbn [arg_or]; [apply U|exact Logic.I]).
  destruct (arg_or arg_nat 0 st) as [s|x|] eqn:E2; cbn [bind]; [|subst x; intros (m' & s & d & _ & H & _); apply (or_read arg_nat is_position 0 st s position_read) in H; congruence|destruct U2].
  apply position_read in E1. apply (or_read arg_nat is_position 0 st s position_read) in E2.
  destruct (arg_or arg_side DRight sd) as [d|x|] eqn:E3; cbn [bind].
  - apply (or_read arg_side is_side DRight sd d side_read) in E3. destruct (truncate e m s d) as [e'|x|] eqn:T; cbn [init]; [exists m, s, d; auto| |exists m, s, d; auto]. exfalso. exact (truncate_no_err e m s d x T).
  - destruct sd as [a|]; cbn [arg_or] in E3; [|discriminate]. assert (NT : forall t, a = AStr t -> x = PValue /\ t <> key "left" /\ t <> key "right").
    { intros t ->. unfold arg_side in E3. cbn [arg_str bind] in E3. destruct (str_eqb t (key "left")) eqn:L1; [discriminate|]. destruct (str_eqb t (key "right")) eqn:L2; [discriminate|]. split; [congruence|]. split; intros ->; rewrite str_eqb_refl in *; discriminate. }
    destruct a as [|b|z|w|t|]; try (unfold arg_side in E3; cbn [arg_str bind] in E3; assert (x = PType) by congruence; subst x; intros (m' & s' & d' & _ & _ & [[H _]|[H _]]); discriminate).
    destruct (NT t eq_refl) as (-> & N1 & N2). exists t. auto.
  - exfalso. destruct sd as [[|b|z|w|t|]|]; cbn [arg_or] in E3; unfold arg_side in E3; cbn [arg_str bind] in E3; try discriminate. destruct (str_eqb t (key "left")), (str_eqb t (key "right")); discriminate.
Qed.

(** A pickle gives the same encoding back, unless its overflowing encodings are nested
    more than 62 deep. *)
Theorem C103_pickle : forall W order (e : encoding), (forall m, Permutation (order m) m) -> fits e -> one_range e ->
  exists j : json W, enc_get_state e = Ok j /\
    (nesting e <= 62 -> exists e', enc_set_state order j = Ok e' /\ same_enc e e') /\
    (62 < nesting e -> enc_set_state order j = Err PInit).
Proof.
  intros W order e HO F O. exists (enc_to_json e). split; [reflexivity|]. unfold enc_set_state. pose proof (depth_ok (W:=W) e) as D. split.
  - intros L. rewrite (proj2 D L). destruct (enc_back (W:=W) order HO e F O recursion_limit) as (e' & E & S); [unfold recursion_limit; lia|]. exists e'. rewrite E. split; [reflexivity|exact S].
  - intros L. destruct (json_depth (enc_to_json e) <? recursion_limit); [|reflexivity]. pose proof (proj1 D eq_refl). lia.
Qed.

Lemma find_same i e e' : ranges_wf e -> Permutation (sequence_ranges e') (sequence_ranges e) -> find_range i (sequence_ranges e') = find_range i (sequence_ranges e).
Proof.
  intros (_ & _ & D) P. destruct (find_range i (sequence_ranges e)) as [s|] eqn:E.
  - apply find_range_some in E. destruct E as (r & I1 & I2). destruct (find_range i (sequence_ranges e')) as [s'|] eqn:E'.
    + apply find_range_some in E'. destruct E' as (r' & J1 & J2). apply (Permutation_in _ P) in J1. destruct (Nat.eq_dec s' s) as [->|X]; [reflexivity|]. exfalso. exact (D _ _ _ _ J1 I1 X i (conj J2 I2)).
    + exfalso. apply (find_range_none _ _ E' s r); [|exact I2]. eapply Permutation_in; [symmetry; exact P|exact I1].
  - destruct (find_range i (sequence_ranges e')) as [s'|] eqn:E'; [|reflexivity]. apply find_range_some in E'. destruct E' as (r' & J1 & J2). apply (Permutation_in _ P) in J1. exfalso. exact (find_range_none _ _ E _ _ J1 J2).
Qed.

(** The same encoding gives the same answers, whatever the order of its ranges. *)
Theorem C103_answers : forall e e', same_enc e e' -> ranges_wf e ->
  enc_len e' = enc_len e /\ n_sequences e' = n_sequences e /\ get_sequence_ids e' = get_sequence_ids e /\
  rows e' = rows e /\
  (forall i, token_to_sequence e' i = token_to_sequence e i) /\
  (forall i, token_to_chars e' i = token_to_chars e i) /\ (forall i, token_to_word e' i = token_to_word e i) /\
  (forall w s, word_to_tokens e' w s = word_to_tokens e w s) /\ (forall w s, word_to_chars e' w s = word_to_chars e w s) /\
  (forall p s, char_to_token e' p s = char_to_token e p s) /\ (forall p s, char_to_word e' p s = char_to_word e p s).
Proof.
  intros e e' [A1 A2 A3 A4 A5 A6 A7 P _] WF. pose proof WF as (ND & _ & _).
  assert (L : enc_len e' = enc_len e) by (unfold enc_len; rewrite A1; reflexivity).
  assert (NS : n_sequences e' = n_sequences e).
  { unfold n_sequences. pose proof (Permutation_length P) as PL. destruct (sequence_ranges e'), (sequence_ranges e); cbn in PL |- *; try discriminate; congruence. }
  assert (SR : forall s, sequence_range e' s = sequence_range e s) by (intros s; unfold sequence_range; rewrite (same_ranges e e' s ND P), L; reflexivity).
  assert (TS : forall i, token_to_sequence e' i = token_to_sequence e i).
  { intros i. unfold token_to_sequence. rewrite L. destruct (enc_len e <? i); [reflexivity|]. pose proof (find_same i e e' WF P) as FS. pose proof (Permutation_length P) as PL.
    destruct (sequence_ranges e') as [|x' m']; destruct (sequence_ranges e) as [|x m]; cbn [length] in PL; try discriminate; [reflexivity|exact FS]. }
  assert (TC : forall i, token_to_chars e' i = token_to_chars e i) by (intros i; unfold token_to_chars; rewrite TS, A5; reflexivity).
  assert (TW : forall i, token_to_word e' i = token_to_word e i) by (intros i; unfold token_to_word; rewrite TS, A4; reflexivity).
  assert (WT : forall w s, word_to_tokens e' w s = word_to_tokens e w s) by (intros w s; unfold word_to_tokens; rewrite SR, A4; reflexivity).
  assert (CT : forall p s, char_to_token e' p s = char_to_token e p s) by (intros p s; unfold char_to_token; rewrite SR, A5; reflexivity).
  split; [exact L|]. split; [exact NS|]. split.
  { unfold get_sequence_ids. rewrite NS, L. generalize (seq 0 (n_sequences e)) (repeat (@None nat) (enc_len e)). intros l. induction l as [|s l IH]; intros acc; cbn [sequence_ids_loop]; [reflexivity|]. rewrite SR. destruct (sequence_range e s) as [a b]. destruct (splice_const acc a b (Some s)); cbn [bind]; auto. }
  split; [unfold rows; rewrite A1, A2, A3, A4, A5, A6, A7; reflexivity|]. split; [exact TS|]. split; [exact TC|]. split; [exact TW|]. split; [exact WT|].
  split; [intros w s; unfold word_to_chars; rewrite WT, A5; reflexivity|]. split; [exact CT|]. intros p s. unfold char_to_word. rewrite CT. destruct (char_to_token e p s); [rewrite TW|]; reflexivity.
Qed.

(** Whatever is called on the encodings of a program, the arrays of each stay parallel
    and each has one range for a sequence. *)
Theorem C103_history : forall W order objs (l : list (@enc_call W)), (forall m, Permutation (order m) m) ->
  Forall (fun e => parallel e /\ one_range e) objs -> Forall honest l ->
  Forall (fun e => parallel e /\ one_range e) (enc_calls order objs l).
Proof. intros W order objs l HO F H. exact (calls_good order HO l objs F H). Qed.

(** The calls on other objects leave an object alone, also those on what its attribute
    [overflowing] gave and on its copies. *)
Theorem C103_isolation : forall W order objs i e (l : list (@enc_call W)),
  nth_error objs i = Some e -> Forall (fun c => changes c <> Some i) l ->
  nth_error (enc_calls order objs l) i = Some e /\
  nth_error (enc_calls order objs (COverflowing i :: l)) i = Some e /\
  nth_error (enc_calls order objs (CCopy i :: l)) i = Some e.
Proof.
  intros W order objs i e l H F. split; [|split]; (apply calls_others; [|exact H]); [exact F| |]; (constructor; [discriminate|exact F]).
Qed.

(** One call changes its object only, or adds new objects, or raises. *)
Theorem C103_call : forall W order objs (c : @enc_call W) objs', enc_effect order objs c = Ok objs' ->
  (forall i, i < length objs -> changes c <> Some i -> nth_error objs' i = nth_error objs i) /\
  (changes c <> None -> length objs' = length objs) /\ (changes c = None -> exists new, objs' = objs ++ new).
Proof. exact @effect_others. Qed.

(** Finding: every call of this program succeeds, but the encoding it makes cannot be
    copied: its pickle is not read. *)
Definition deep_program : list (@enc_call unit) := CNew :: concat (repeat [CPad 0 (AInt 1) []; CTruncate 0 (AInt 0) None None] 63).
Theorem C103_deep_refuted : exists e, nth_error (enc_calls (fun m => m) [] deep_program) 0 = Some e /\
  parallel e /\ one_range e /\ nesting e = 63 /\
  enc_effect (fun m => m) (enc_calls (fun m => m) [] deep_program) (CCopy (W:=unit) 0) = Err PInit.
Proof.
  pose proof (C103_history unit (fun m => m) [] deep_program (fun m => Permutation_refl m) (Forall_nil _)) as H.
  assert (HH : Forall honest deep_program).
  { unfold deep_program. constructor; [exact Logic.I|]. apply Forall_concat. apply Forall_forall. intros x Hx. apply repeat_spec in Hx. subst x. repeat constructor. }
  specialize (H HH). destruct (nth_error (enc_calls (fun m => m) [] deep_program) 0) as [e|] eqn:E.
  - exists e. rewrite Forall_forall in H. destruct (H e (nth_error_In _ _ E)) as [P O]. split; [reflexivity|]. split; [exact P|]. split; [exact O|]. split.
    + assert (X : option_map nesting (nth_error (enc_calls (W:=unit) (fun m => m) [] deep_program) 0) = Some 63) by (vm_compute; reflexivity). rewrite E in X. cbn [option_map] in X. congruence.
    + vm_compute. reflexivity.
  - exfalso. assert (X : match nth_error (enc_calls (W:=unit) (fun m => m) [] deep_program) 0 with Some _ => true | None => false end = true) by (vm_compute; reflexivity). rewrite E in X. discriminate.
Qed.

(** Finding: [__setstate__] takes arrays of different lengths, and [truncate] then
    panics although the stride is less than the length. *)
Definition odd_state : json unit := JObj [
  (key "ids", JArr [JInt 1; JInt 2]); (key "type_ids", JArr []); (key "tokens", JArr []); (key "words", JArr []); (key "offsets", JArr []);
  (key "special_tokens_mask", JArr []); (key "attention_mask", JArr []); (key "overflowing", JArr []); (key "sequence_ranges", JObj [])].
Theorem C103_state_refuted : exists e, enc_set_state (fun m => m) odd_state = Ok e /\ ~ parallel e /\
  py_truncate (W:=unit) (AInt 1) None None e = Panic.
Proof.
  exists (mkEnc [1; 2]%N [] [] [] [] [] [] [] []). split; [vm_compute; reflexivity|]. split; [|vm_compute; reflexivity].
  intros [(H & _) _]. discriminate.
Qed.

(** The place of a token leads back to its sequence, when the sequence is given. *)
Theorem C103_lookup : forall W e (a p q : arg W) i s o pos, ranges_wf e -> same_lengths e ->
  is_position a i -> py_token_to_sequence e a = Ok (Some s) -> py_token_to_chars e a = Ok (Some o) ->
  covers o pos -> is_position p pos -> is_position q s ->
  exists j o', py_char_to_token e p (Some q) = Ok (Some j) /\ j <= i /\
    token_to_chars e j = Some (s, o') /\ covers o' pos.
Proof.
  intros W e a p q i s o pos WF SL HA HS HC C HP HQ. apply position_read in HA, HP, HQ. unfold py_token_to_sequence, py_token_to_chars in *. rewrite HA in HS, HC. cbn [bind] in HS, HC.
  assert (S1 : token_to_sequence e i = Some s) by congruence. assert (C1 : option_map snd (token_to_chars e i) = Some o) by congruence.
  destruct (token_to_chars e i) as [[s' o1]|] eqn:T; [|discriminate]. cbn [option_map snd] in C1. assert (o1 = o) by congruence. subst o1.
  assert (s' = s). { unfold token_to_chars in T. rewrite S1 in T. destruct (nth_error (offsets e) i); congruence. }
  subst s'. destruct (C07_roundtrip e i s o pos WF SL T C) as (j & o' & R1 & R2 & R3 & R4). exists j, o'.
  unfold py_char_to_token, seq_index. rewrite HP. cbn [bind arg_or]. rewrite HQ. cbn [bind]. rewrite R1. auto.
Qed.

(** Without a sequence the lookups by character and by word are about the first one. *)
Theorem C103_lookup_chars : forall W e (p : arg W) q pos s r, ranges_wf e -> same_lengths e ->
  is_position p pos -> default_or is_position 0 q s -> seq_span e s r ->
  exists found word, py_char_to_token e p q = Ok found /\ py_char_to_word e p q = Ok word /\
    (forall i, found = Some i <->
       fst r <= i < snd r /\ (exists o, nth_error (offsets e) i = Some o /\ covers o pos) /\
       (forall j o, fst r <= j < i -> nth_error (offsets e) j = Some o -> ~ covers o pos)) /\
    (forall w, word = Some w <-> exists i, found = Some i /\ nth_error (words e) i = Some (Some w)).
Proof.
  intros W e p q pos s r WF SL HP HQ SP. exists (char_to_token e pos s), (char_to_word e pos s). apply position_read in HP. apply (or_read arg_nat is_position 0 q s position_read) in HQ.
  unfold py_char_to_token, py_char_to_word, seq_index. rewrite HP. cbn [bind]. rewrite HQ. cbn [bind]. split; [reflexivity|]. split; [reflexivity|].
  split; [intros i; apply C07_char_to_token; assumption|]. intros w. apply (C07_char_to_word e pos s r w WF SL SP).
Qed.

Theorem C103_lookup_words : forall W e (a : arg W) q word s r, ranges_wf e -> same_lengths e ->
  is_u32 a word -> default_or is_position 0 q s -> seq_span e s r -> words_sorted e r ->
  exists found, py_word_to_tokens e a q = Ok found /\
  match found with
  | None => (forall i, fst r <= i < snd r -> nth_error (words e) i <> Some (Some word)) /\ py_word_to_chars e a q = Ok None
  | Some (x, y) =>
      fst r <= x /\ x < y /\ y <= snd r /\
      nth_error (words e) x = Some (Some word) /\ nth_error (words e) (y - 1) = Some (Some word) /\
      (forall i, fst r <= i < snd r -> nth_error (words e) i = Some (Some word) -> x <= i < y) /\
      exists o1 o2, nth_error (offsets e) x = Some o1 /\ nth_error (offsets e) (y - 1) = Some o2 /\
        py_word_to_chars e a q = Ok (Some (fst o1, snd o2))
  end.
Proof.
  intros W e a q word s r WF SL HA HQ SP WS. exists (word_to_tokens e word s). apply u32_read in HA. apply (or_read arg_nat is_position 0 q s position_read) in HQ.
  unfold py_word_to_tokens, py_word_to_chars, seq_index. rewrite HA. cbn [bind]. rewrite HQ. cbn [bind]. split; [reflexivity|].
  pose proof (C07_word_to_tokens e word s r WF SL SP WS) as T. pose proof (C07_word_to_chars e word s r WF SL SP WS) as C.
  destruct (word_to_tokens e word s) as [[x y]|]; [|split; [exact T|rewrite C; reflexivity]].
  destruct T as (T1 & T2 & T3 & T4 & T5 & T6). destruct C as (o1 & o2 & C1 & C2 & C3). repeat (split; [assumption|]). exists o1, o2. rewrite C3. auto.
Qed.

Theorem C103_lookup_tokens : forall W e (a : arg W) i, ranges_wf e -> same_lengths e -> is_position a i -> i < enc_len e ->
  exists s o w, py_token_to_sequence e a = Ok s /\ py_token_to_chars e a = Ok o /\ py_token_to_word e a = Ok w /\
    (forall x, s = Some x <-> belongs e i x) /\
    (forall x, o = Some x <-> (exists y, belongs e i y) /\ nth_error (offsets e) i = Some x) /\
    (forall x, w = Some x <-> (exists y, belongs e i y) /\ nth_error (words e) i = Some (Some x)).
Proof.
  intros W e a i WF SL HA L. apply position_read in HA. exists (token_to_sequence e i), (option_map snd (token_to_chars e i)), (option_map snd (token_to_word e i)).
  unfold py_token_to_sequence, py_token_to_chars, py_token_to_word. rewrite HA. cbn [bind]. do 3 (split; [reflexivity|]). split; [intros x; apply C08_token_to_sequence; [exact WF|left; lia]|]. split.
  - intros x. pose proof (fun y => C07_token_to_chars e i y x WF SL) as T. split.
    + intros H. destruct (token_to_chars e i) as [[y x']|] eqn:E; [|discriminate]. cbn in H. assert (x' = x) by congruence. subst x'. destruct (proj1 (T y) eq_refl). eauto.
    + intros ((y & B) & H). rewrite (proj2 (T y) (conj B H)). reflexivity.
  - intros x. pose proof (fun y => C07_token_to_word e i y x WF SL) as T. split.
    + intros H. destruct (token_to_word e i) as [[y x']|] eqn:E; [|discriminate]. cbn in H. assert (x' = x) by congruence. subst x'. destruct (proj1 (T y) eq_refl). eauto.
    + intros ((y & B) & H). rewrite (proj2 (T y) (conj B H)). reflexivity.
Qed.

(** [Encoding.merge]: a new object, with the tables one after the other and growing
    offsets unless told otherwise. *)
Theorem C103_merge : forall W order objs l (g : option (arg W)) objs', Forall parallel objs ->
  enc_effect order objs (CMerge l g) = Ok objs' ->
  exists es b e, Forall2 (fun i x => nth_error objs i = Some x) l es /\ default_or is_flag true g b /\
    objs' = objs ++ [e] /\ rows e = fold_left (juxtapose b) (map rows es) [].
Proof.
  intros W order objs l g objs' F H. cbn [enc_effect] in H. destruct (map_res (obj objs) l) as [es|?|] eqn:E; cbn [bind] in H; try discriminate.
  destruct (arg_or arg_bool true g) as [b|?|] eqn:B; cbn [bind] in H; try discriminate. injection H as <-. apply (or_read arg_bool is_flag true g b flag_read) in B.
  exists es, b, (merge b es). assert (F2 : Forall2 (fun i x => nth_error objs i = Some x) l es).
  { revert es E. induction l as [|i l IH]; intros es E; cbn [map_res] in E; [injection E as <-; constructor|].
    destruct (obj objs i) as [x|?|] eqn:X; cbn [bind] in E; try discriminate. destruct (map_res (obj objs) l) as [es'|?|]; cbn [bind] in E; try discriminate. injection E as <-.
    constructor; [exact (proj1 (obj_in _ _ _ X))|apply IH; reflexivity]. }
  split; [exact F2|]. split; [exact B|]. split; [reflexivity|]. apply rows_merge. apply objs_in in E. rewrite Forall_forall in *. auto.
Qed.

(** [set_sequence_id]: the whole encoding becomes the sequence; other ranges and the
    table stay. *)
Theorem C103_sequence : forall W order objs i (s : arg W) objs', Forall one_range objs ->
  enc_effect order objs (CSequence i s) = Ok objs' ->
  exists e e' n, nth_error objs i = Some e /\ is_position s n /\ nth_error objs' i = Some e' /\ rows e' = rows e /\ overflowing e' = overflowing e /\
    In (n, (0, enc_len e)) (sequence_ranges e') /\
    (forall k r, k <> n -> (In (k, r) (sequence_ranges e') <-> In (k, r) (sequence_ranges e))).
Proof.
  intros W order objs i s objs' F H. cbn [enc_effect] in H. destruct (obj objs i) as [e|?|] eqn:E; cbn [bind] in H; try discriminate. destruct (arg_nat s) as [n|?|] eqn:N; cbn [bind] in H; try discriminate. injection H as <-.
  apply obj_in in E. destruct E as [E L]. apply position_read in N. exists e, (set_sequence_id e n), n. split; [exact E|]. split; [exact N|]. split; [apply update_this; exact L|]. split; [reflexivity|]. split; [reflexivity|].
  unfold set_sequence_id. cbn [set_ranges sequence_ranges]. clear. generalize (sequence_ranges e) (enc_len e). intros m len. split.
  - induction m as [|[k r] m IH]; cbn [ranges_insert]; [left; reflexivity|]. destruct (Nat.eqb_spec n k) as [->|D]; [left; reflexivity|right; exact IH].
  - intros k r D. induction m as [|[k' r'] m IH]; cbn [ranges_insert In]; [split; [intros [X|[]]; congruence|intros []]|].
    destruct (Nat.eqb_spec n k') as [->|D']; cbn [In]; [split; (intros [X|X]; [congruence|right; exact X])|]. rewrite IH. reflexivity.
Qed.

(** [pad] and [truncate] in a program do this to their object. *)
Theorem C103_changed : forall W order objs i e (n : arg W) kw st sd, nth_error objs i = Some e ->
  (forall e', py_pad n kw e = Ok e' -> exists objs', enc_effect order objs (CPad i n kw) = Ok objs' /\ nth_error objs' i = Some e') /\
  (forall e', py_truncate n st sd e = Ok e' -> exists objs', enc_effect order objs (CTruncate i n st sd) = Ok objs' /\ nth_error objs' i = Some e') /\
  ((forall e', py_pad n kw e <> Ok e') -> enc_calls order objs [CPad i n kw] = objs) /\
  ((forall e', py_truncate n st sd e <> Ok e') -> enc_calls order objs [CTruncate i n st sd] = objs).
Proof.
  intros W order objs i e n kw st sd E. assert (L : i < length objs) by (apply nth_error_Some; congruence).
  assert (OB : obj objs i = Ok e) by (unfold obj; rewrite E; reflexivity). unfold enc_calls. cbn [fold_left enc_effect]. rewrite !OB. cbn [bind]. split; [|split; [|split]].
  - intros e' H. rewrite H. cbn [bind]. eexists. split; [reflexivity|]. apply update_this. exact L.
  - intros e' H. rewrite H. cbn [bind]. eexists. split; [reflexivity|]. apply update_this. exact L.
  - intros H. destruct (py_pad n kw e) as [x|x|]; [exfalso; exact (H x eq_refl)|reflexivity|reflexivity].
  - intros H. destruct (py_truncate n st sd e) as [x|x|]; [exfalso; exact (H x eq_refl)|reflexivity|reflexivity].
Qed.

(** Copies and [__setstate__]: the same encoding as the one pickled. *)
Theorem C103_copies : forall W order objs i, (forall m, Permutation (order m) m) ->
  (forall e, nth_error objs i = Some e -> fits e -> one_range e -> nesting e <= 62 ->
     exists e', enc_effect (W:=W) order objs (CCopy i) = Ok (objs ++ [e']) /\ same_enc e e') /\
  (forall e e0, nth_error objs i = Some e -> fits e0 -> one_range e0 -> nesting e0 <= 62 ->
     exists j objs' e', enc_get_state e0 = Ok j /\ enc_effect (W:=W) order objs (CSetState i j) = Ok objs' /\ nth_error objs' i = Some e' /\ same_enc e0 e') /\
  (forall e, nth_error objs i = Some e -> enc_effect (W:=W) order objs (COverflowing i) = Ok (objs ++ overflowing e)).
Proof.
  intros W order objs i HO. split; [|split].
  - intros e E F O L. destruct (C103_pickle W order e HO F O) as (j & J & K & _). destruct (K L) as (e' & R & S). exists e'. cbn [enc_effect]. unfold obj. rewrite E. cbn [bind]. rewrite J. cbn [bind]. rewrite R. split; [reflexivity|exact S].
  - intros e e0 E F O L. destruct (C103_pickle W order e0 HO F O) as (j & J & K & _). destruct (K L) as (e' & R & S). exists j, (update objs i e'), e'. cbn [enc_effect]. unfold obj. rewrite E. cbn [bind]. rewrite R. split; [exact J|]. split; [reflexivity|]. split; [|exact S]. apply update_this. apply nth_error_Some. congruence.
  - intros e E. cbn [enc_effect]. unfold obj. rewrite E. reflexivity.
Qed.

(** Finding: without it the first sequence is meant: the place of a token of the
    second one gives a token of the first. *)
Theorem C103_lookup_default_refuted : exists e i o j, same_lengths e /\ ranges_wf e /\
  py_token_to_sequence (W:=unit) e (AInt (Z.of_nat i)) = Ok (Some 1) /\ py_token_to_chars (W:=unit) e (AInt (Z.of_nat i)) = Ok (Some o) /\
  py_char_to_token (W:=unit) e (AInt (Z.of_nat (fst o))) None = Ok (Some j) /\ py_token_to_sequence (W:=unit) e (AInt (Z.of_nat j)) = Ok (Some 0).
Proof.
  exists pair_sample, 4, (0, 1), 0. destruct C07_example as (WF & SL & _). split; [exact SL|]. split; [exact WF|]. vm_compute. auto 10.
Qed.

(** The hypotheses are met: an encoding of two sequences, padded and truncated by name,
    survives its pickle. *)
Definition ex_kwargs : list (str * arg unit) := [(key "pad_id", AInt 9); (key "direction", AStr (key "left")); (key "unknown", ANone)].
Definition ex_program : list (@enc_call unit) := [CPad 0 (AInt 9) ex_kwargs; COverflowing 0; CTruncate 0 (AInt 4) (Some (AInt 1)) None; CTruncate 0 (AInt 3) (Some (AInt 3)) None; CCopy 0].
Example C103_example :
  NoDup (map fst ex_kwargs) /\ parallel pair_sample /\ one_range pair_sample /\ fits pair_sample /\ Forall honest ex_program /\
  (exists e', py_pad (AInt 9) ex_kwargs pair_sample = Ok e' /\ ids e' = [9; 9; 0; 1; 2; 3; 0; 1; 2]%N /\
     py_truncate (W:=unit) (AInt 3) (Some (AInt 3)) None e' = Panic) /\
  map ids (enc_calls (fun m => m) [pair_sample] ex_program) = [[9; 9; 0; 1]; [9; 9; 0; 1]]%N.
Proof.
  destruct C07_example as (WF & SL & _).
  split; [repeat constructor; cbn; intuition discriminate|]. split; [constructor; [exact SL|constructor]|]. split; [constructor; [apply WF|constructor]|].
  split; [constructor; cbn; repeat constructor; try (intros n E; injection E as <-; lia); cbn; try lia|].
  split; [repeat constructor|]. split; [eexists; split; [vm_compute; reflexivity|]; split; [vm_compute; reflexivity|]; vm_compute; reflexivity|].
  vm_compute. reflexivity.
Qed.
