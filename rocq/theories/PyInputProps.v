(** C81: what Python code asks to encode is what is encoded. *)
From Verif Require Import Base ListFacts StrBytes Utf8 EncodingModel PreTokModel PreTokProofs WordPieceModel AddedModel TokenizerModel RoundTripModel TokenizerTrainModel PyInputModel PyInputSpec.
From Verif Require TokenizerTrainProps.

Lemma text_reads o s : says_text o s <-> py_string o = Ok s.
Proof.
  split.
  - intros [t F]. cbn [py_string]. rewrite (proj2 (forallb_forall _ _)); [reflexivity|]. rewrite Forall_forall in F. exact F.
  - destruct o; cbn [py_string]; try discriminate. destruct (forallb is_scalar s0) eqn:E; [|discriminate]. intros H. injection H as <-. constructor. apply Forall_forall. apply forallb_forall. exact E.
Qed.
Lemma texts_read l ws : Forall2 says_text l ws <-> py_strings l = Ok ws.
Proof.
  unfold py_strings. split.
  - induction 1 as [|o s l ws H _ IH]; [reflexivity|]. cbn [map_res]. apply text_reads in H. rewrite H. cbn [bind]. rewrite IH. reflexivity.
  - intros H. apply map_res_ok in H. induction H; constructor; [apply text_reads; assumption|assumption].
Qed.
Lemma string_error o e : py_string o = Err e -> e = EType \/ e = EUnicode.
Proof. destruct o; cbn [py_string]; intros H; try (injection H as <-; auto; fail). destruct (forallb is_scalar s); [discriminate|]. injection H as <-. auto. Qed.
Lemma string_calm o : py_string o <> Panic.
Proof. destruct o; cbn [py_string]; try discriminate. destruct (forallb is_scalar s); discriminate. Qed.
Lemma map_calm {A B} (f : A -> res py_error B) l : (forall a, f a <> Panic) -> map_res f l <> Panic.
Proof.
  intros H. induction l as [|a l IH]; [discriminate|]. cbn [map_res]. specialize (H a). destruct (f a); cbn [bind]; [|discriminate|congruence]. destruct (map_res f l); cbn [bind]; congruence.
Qed.
Lemma strings_calm l : py_strings l <> Panic.
Proof. apply map_calm, string_calm. Qed.
Lemma array_u_calm o : array_unicode o <> Panic.
Proof. destruct o; try discriminate. apply map_calm. intros s. destruct (from_utf8 _); discriminate. Qed.
Lemma array_o_calm o : array_str o <> Panic.
Proof. destruct o; try discriminate. apply map_calm. intros []; discriminate. Qed.

Lemma lossy_texts l ws : Forall2 says_text l ws -> map_res (fun x => match x with PyStr s => Ok (py_lossy s) | _ => Err EType end) l = Ok ws.
Proof.
  induction 1 as [|o s l ws H _ IH]; [reflexivity|]. destruct H as [s F]. cbn [map_res bind]. rewrite IH. cbn [bind]. do 2 f_equal.
  unfold py_lossy. induction F as [|c s E _ IHs]; [reflexivity|]. cbn [flat_map]. rewrite E, IHs. reflexivity.
Qed.
Lemma words_read o ws : says_words o ws -> pretok_input o = Ok ws /\ owned_words o = Ok ws.
Proof.
  intros [l vs H|l vs H|l vs H]; unfold pretok_input, owned_words; cbn [array_unicode array_str or_else].
  - apply texts_read in H. rewrite H. auto.
  - apply texts_read in H. rewrite H. auto.
  - rewrite (lossy_texts _ _ H). auto.
Qed.
Lemma sequence_read pre o x : says_sequence pre o x -> sequence_input pre o = Ok x /\ owned_sequence pre o = Ok x.
Proof.
  intros [o' s H|o' ws H]; unfold sequence_input, owned_sequence.
  - apply text_reads in H. unfold text_input. rewrite H. auto.
  - apply words_read in H. destruct H as [-> ->]. auto.
Qed.
Lemma sequence_only pre o : no_arrays o -> (forall x, ~ says_sequence pre o x) -> sequence_input pre o = Err EType.
Proof.
  intros NA H. unfold sequence_input. destruct pre.
  - unfold pretok_input. assert (X : forall l ws, py_strings l = Ok ws -> o = PyList l \/ o = PyTuple l -> False).
    { intros l ws E [->| ->]; apply texts_read in E; eapply H; constructor; constructor; exact E. }
    destruct NA as [s|l F|l F|]; cbn [array_unicode array_str or_else bind]; try reflexivity;
      (destruct (py_strings l) as [ws|e|] eqn:E; [exfalso; exact (X _ _ E ltac:(auto))|reflexivity|exfalso; exact (strings_calm _ E)]).
  - unfold text_input. destruct (py_string o) as [s|e|] eqn:E; [|reflexivity|exfalso; exact (string_calm _ E)]. apply text_reads in E. exfalso. exact (H _ (say_raw _ _ E)).
Qed.

(** What an object says is what is encoded, with offsets in characters. *)
Theorem C81_encode t pre add o x : says_sequence pre o x ->
  py_encode t o None pre add = to_py (encode t OChar (Single x) add).
Proof. intros H. apply sequence_read in H. destruct H as [H _]. unfold py_encode. rewrite H. reflexivity. Qed.
Theorem C81_encode_pair t pre add o x o' x' : says_sequence pre o x -> says_sequence pre o' x' ->
  py_encode t o (Some o') pre add = to_py (encode t OChar (Dual x x') add).
Proof. intros H H'. apply sequence_read in H. apply sequence_read in H'. unfold py_encode. rewrite (proj1 H). cbn [bind]. rewrite (proj1 H'). reflexivity. Qed.
(** Anything else is a [TypeError]. *)
Theorem C81_encode_rejects t pre add o pair : no_arrays o -> (forall x, ~ says_sequence pre o x) -> py_encode t o pair pre add = Err EType.
Proof. intros NA H. unfold py_encode. rewrite (sequence_only _ _ NA H). reflexivity. Qed.
Theorem C81_pair_rejects t pre add o x p : says_sequence pre o x -> no_arrays p -> (forall x, ~ says_sequence pre p x) -> py_encode t o (Some p) pre add = Err EType.
Proof. intros H NA N. unfold py_encode. rewrite (proj1 (sequence_read _ _ _ H)). cbn [bind]. rewrite (sequence_only _ _ NA N). reflexivity. Qed.

(** An object says at most one thing. *)
Lemma text_one o s s' : says_text o s -> says_text o s' -> s = s'.
Proof. intros H H'. apply text_reads in H, H'. congruence. Qed.
Lemma sequence_one pre o x x' : says_sequence pre o x -> says_sequence pre o x' -> x = x'.
Proof. intros H H'. apply sequence_read in H, H'. destruct H, H'. congruence. Qed.
Lemma no_sequence_of_two pre (a b : pyobj) x y o : says_sequence pre a x -> says_sequence pre b y -> o = PyTuple [a; b] \/ o = PyList [a; b] -> forall z, ~ says_sequence pre o z.
Proof.
  intros Ha Hb E z Hz. destruct Hz as [o s H|o ws H].
  - destruct H. destruct E as [E|E]; discriminate.
  - assert (X : exists s, says_text a s).
    { destruct E as [-> | ->]; inversion H as [l vs F|l vs F|l vs F]; subst; inversion F; subst; eauto. }
    destruct X as (s & X). inversion Ha as [|? vs Hw]; subst. destruct X. inversion Hw.
Qed.
Theorem C81_unambiguous pre o i i' : says_input pre o i -> says_input pre o i' -> i = i'.
Proof.
  intros H H'. inversion H as [? x Hx|a b x y Ha Hb|a b x y Ha Hb]; subst; inversion H' as [? x' Hx'|a' b' x' y' Ha' Hb'|a' b' x' y' Ha' Hb']; subst.
  - f_equal. eapply sequence_one; eassumption.
  - exfalso. eapply no_sequence_of_two; [exact Ha'|exact Hb'| |exact Hx]; auto.
  - exfalso. eapply no_sequence_of_two; [exact Ha'|exact Hb'| |exact Hx]; auto.
  - exfalso. eapply no_sequence_of_two; [exact Ha|exact Hb| |exact Hx']; auto.
  - f_equal; eapply sequence_one; eassumption.
  - exfalso. eapply no_sequence_of_two; [exact Ha|exact Hb| |exact Hx']; auto.
  - f_equal; eapply sequence_one; eassumption.
Qed.

Lemma not_one pre a b x : says_sequence pre a x -> sequence_input pre (PyTuple [a; b]) = Err EType /\ sequence_input pre (PyList [a; b]) = Err EType.
Proof.
  intros [o s H|o ws H]; unfold sequence_input; [auto|]. unfold pretok_input, py_strings. destruct H; cbn [array_unicode array_str or_else map_res py_string bind]; auto.
Qed.
Lemma input_read pre o i : says_input pre o i -> encode_input_of pre o = Ok i.
Proof.
  intros [o' x H|a b x y Ha Hb|a b x y Ha Hb]; unfold encode_input_of.
  - rewrite (proj1 (sequence_read _ _ _ H)). reflexivity.
  - rewrite (proj1 (not_one _ _ b _ Ha)). cbn [bind or_else]. unfold pair_of. rewrite (proj1 (sequence_read _ _ _ Ha)). cbn [bind]. rewrite (proj1 (sequence_read _ _ _ Hb)). reflexivity.
  - rewrite (proj2 (not_one _ _ b _ Ha)). cbn [bind or_else py_items]. unfold pair_of. rewrite (proj1 (sequence_read _ _ _ Ha)). cbn [bind]. rewrite (proj1 (sequence_read _ _ _ Hb)). reflexivity.
Qed.
Lemma inputs_read pre l is : Forall2 (says_input pre) l is -> map_res (encode_input_of pre) l = Ok is.
Proof. induction 1 as [|o i l is H _ IH]; [reflexivity|]. cbn [map_res]. rewrite (input_read _ _ _ H). cbn [bind]. rewrite IH. reflexivity. Qed.

(** Batches: each item is encoded as what it says. *)
Theorem C81_batch fast t pre add schedule l is : Forall2 (says_input pre) l is ->
  py_encode_batch fast t l pre add schedule = to_py (encode_batch t (if fast then ONone else OChar) is add schedule).
Proof. intros H. unfold py_encode_batch. rewrite (inputs_read _ _ _ H). reflexivity. Qed.

Lemma sequence_error pre o : (exists x, sequence_input pre o = Ok x) \/ sequence_input pre o = Err EType.
Proof.
  unfold sequence_input. destruct pre.
  - unfold pretok_input. assert (X : forall (r k : res py_error (list str)), r <> Panic -> ((exists ws, k = Ok ws) \/ k = Err EType) -> (exists ws, or_else r k = Ok ws) \/ or_else r k = Err EType).
    { intros [ws|e|] k P K; cbn [or_else]; [eauto|exact K|congruence]. }
    match goal with |- context [bind ?r _] => assert (Y : (exists ws, r = Ok ws) \/ r = Err EType) end.
    { apply X; [apply array_u_calm|]. apply X; [apply array_o_calm|]. apply X; [destruct o; try discriminate; apply strings_calm|]. apply X; [destruct o; try discriminate; apply strings_calm|auto]. }
    destruct Y as [[ws ->] | ->]; cbn [bind]; eauto.
  - unfold text_input. pose proof (string_calm o). destruct (py_string o); cbn [bind]; [eauto|auto|congruence].
Qed.
Lemma pair_error pre a b : (exists i, pair_of pre a b = Ok i) \/ pair_of pre a b = Err EType.
Proof.
  unfold pair_of. destruct (sequence_error pre a) as [[x ->] | ->]; cbn [bind]; [|auto]. destruct (sequence_error pre b) as [[y ->] | ->]; cbn [bind]; eauto.
Qed.
Lemma input_error pre o : (exists i, encode_input_of pre o = Ok i) \/ encode_input_of pre o = Err EType.
Proof.
  unfold encode_input_of. destruct (sequence_error pre o) as [[x ->] | ->]; cbn [bind or_else]; [eauto|].
  assert (T : forall l, (exists i, match l with [a; b] => pair_of pre a b | _ => Err EType end = Ok i) \/ match l with [a; b] => pair_of pre a b | _ => Err EType end = Err EType).
  { intros [|a [|b [|c l]]]; auto. apply pair_error. }
  destruct o as [s|l|l|items|l|]; cbn [py_items or_else]; auto; try apply T.
  destruct (T l) as [[i ->] | ->]; cbn [or_else]; [eauto|auto].
Qed.
Lemma sequence_says pre o x : no_arrays o -> sequence_input pre o = Ok x -> says_sequence pre o x.
Proof.
  intros NA E. unfold sequence_input in E. destruct pre.
  - unfold pretok_input in E. destruct NA as [s|l F|l F|]; cbn [array_unicode array_str or_else bind] in E; try discriminate;
      (destruct (py_strings l) as [ws|e|] eqn:H in E; [|discriminate|discriminate]; injection E as <-; apply texts_read in H; constructor; constructor; exact H).
  - unfold text_input in E. destruct (py_string o) as [s|e|] eqn:H in E; [|discriminate|discriminate]. injection E as <-. apply text_reads in H. constructor. exact H.
Qed.
Lemma input_says pre o i : no_arrays o -> encode_input_of pre o = Ok i -> says_input pre o i.
Proof.
  intros NA E. unfold encode_input_of in E. destruct (sequence_input pre o) as [x|e|] eqn:H; cbn [bind or_else] in E; [|clear H|discriminate].
  - injection E as <-. constructor. apply sequence_says; assumption.
  - assert (T : forall a b i, no_arrays a -> no_arrays b -> pair_of pre a b = Ok i -> exists x y, i = Dual x y /\ says_sequence pre a x /\ says_sequence pre b y).
    { intros a b j Na Nb X. unfold pair_of in X. destruct (sequence_input pre a) as [x| |] eqn:Ha; cbn [bind] in X; try discriminate. destruct (sequence_input pre b) as [y| |] eqn:Hb; cbn [bind] in X; try discriminate.
      injection X as <-. exists x, y. split; [reflexivity|]. split; apply sequence_says; assumption. }
    destruct NA as [s|l F|l F|]; cbn [py_items or_else] in E; try discriminate; destruct l as [|a [|b [|c l]]]; try discriminate;
      apply Forall_cons_iff in F; destruct F as [Na F]; apply Forall_cons_iff in F; destruct F as [Nb _].
    + destruct (T _ _ _ Na Nb E) as (x & y & -> & X & Y). constructor; assumption.
    + destruct (pair_of pre a b) as [j|e'|] eqn:P; cbn [or_else] in E; [|discriminate|discriminate]. injection E as <-. destruct (T _ _ _ Na Nb P) as (x & y & -> & X & Y). constructor; assumption.
Qed.
(** An item that says nothing makes the whole batch a [TypeError]: nothing is encoded. *)
Theorem C81_batch_rejects fast t pre add schedule l o : In o l -> no_arrays o -> (forall i, ~ says_input pre o i) ->
  py_encode_batch fast t l pre add schedule = Err EType.
Proof.
  intros Hin NA H. unfold py_encode_batch. assert (X : map_res (encode_input_of pre) l = Err EType); [|rewrite X; reflexivity].
  induction l as [|a l IH]; [destruct Hin|]. cbn [map_res]. destruct (input_error pre a) as [[i E] | ->]; [|reflexivity]. rewrite E. cbn [bind]. destruct Hin as [-> |Hin].
  - exfalso. exact (H i (input_says _ _ _ NA E)).
  - rewrite (IH Hin). reflexivity.
Qed.

(** The asynchronous batches do the same, except with two words. *)
Lemma owned_read pre o i : says_input pre o i -> (pre = true -> ~ two_texts o) -> owned_item pre o = Ok i.
Proof.
  intros H NT. destruct H as [o x H|a b x y Ha Hb|a b x y Ha Hb].
  - pose proof (proj2 (sequence_read _ _ _ H)) as R. destruct o as [s|l|l|items|l|]; cbn [owned_item]; try (rewrite R; reflexivity).
    + destruct l as [|a [|b [|c l]]]; try (rewrite R; reflexivity). assert (pre || (is_str a && is_str b) = false) as ->; [|rewrite R; reflexivity].
      inversion H as [? s HT|? ws HW]; subst; [inversion HT|]. exfalso. apply (NT eq_refl). inversion HW as [? ? F| |]; subst. inversion F as [|? ? ? ? T1 F1]; subst. inversion F1 as [|? ? ? ? T2 F2]; subst. destruct T1, T2. unfold two_texts. eauto.
    + destruct l as [|a [|b [|c l]]]; try (rewrite R; reflexivity). exfalso.
      inversion H as [? s HT|? ws HW]; subst; [inversion HT|]. apply (NT eq_refl). inversion HW as [|? ? F|]; subst. inversion F as [|? ? ? ? T1 F1]; subst. inversion F1 as [|? ? ? ? T2 F2]; subst. destruct T1, T2. unfold two_texts. eauto.
  - cbn [owned_item]. unfold owned_pair. rewrite (proj2 (sequence_read _ _ _ Ha)). cbn [bind]. rewrite (proj2 (sequence_read _ _ _ Hb)). reflexivity.
  - cbn [owned_item]. assert (pre || (is_str a && is_str b) = true) as ->.
    { destruct Ha as [? ? []|]; [|reflexivity]. inversion Hb as [? ? []|]; subst. reflexivity. }
    unfold owned_pair. rewrite (proj2 (sequence_read _ _ _ Ha)). cbn [bind]. rewrite (proj2 (sequence_read _ _ _ Hb)). reflexivity.
Qed.
Theorem C81_async_batch fast t pre add schedule schedule' l is : Forall2 (says_input pre) l is -> (pre = true -> Forall (fun o => ~ two_texts o) l) ->
  py_async_encode_batch fast t l pre add schedule = py_encode_batch fast t l pre add schedule /\
  py_async_encode_batch fast t l pre add schedule' = to_py (encode_batch t (if fast then ONone else OChar) is add schedule').
Proof.
  intros H NT. assert (X : map_res (owned_item pre) l = Ok is).
  { clear -H NT. induction H as [|o i l is H HF IH]; [reflexivity|]. cbn [map_res]. rewrite (owned_read _ _ _ H); [|intros P; specialize (NT P); apply Forall_cons_iff in NT; apply NT].
    cbn [bind]. rewrite IH; [reflexivity|]. intros P. specialize (NT P). apply Forall_cons_iff in NT. apply NT. }
  unfold py_async_encode_batch. rewrite X. split; [|reflexivity]. symmetry. apply (C81_batch fast t pre add schedule _ _ H).
Qed.
(** [async_encode] encodes the same, with offsets in bytes. *)
Theorem C81_async t pre add o x : says_sequence pre o x ->
  py_async_encode t o None pre add = to_py (encode t OByte (Single x) add) /\
  forall o' x', says_sequence pre o' x' -> py_async_encode t o (Some o') pre add = to_py (encode t OByte (Dual x x') add).
Proof.
  intros H. unfold py_async_encode. rewrite (proj2 (sequence_read _ _ _ H)). split; [reflexivity|]. intros o' x' H'. cbn [bind]. rewrite (proj2 (sequence_read _ _ _ H')). reflexivity.
Qed.

(** Arrays of dtype [U] of ASCII text: every character is followed by three NUL
    characters, and short elements are filled up with them. *)
Definition nulled (s : list N) : str := flat_map (fun c => [c; 0; 0; 0]%N) s.
Lemma nulled_bytes s : Forall (fun c => (c < 128)%N) s -> from_utf8 (flat_map le32 s) = Some (nulled s).
Proof.
  intros F. assert (E : flat_map le32 s = encode_utf8 (nulled s)).
  { induction F as [|c s L _ IH]; [reflexivity|]. unfold nulled. cbn [flat_map]. fold (nulled s). unfold encode_utf8. rewrite flat_map_app. fold (encode_utf8 (nulled s)). rewrite <- IH. f_equal. unfold le32.
    rewrite (N.mod_small c) by lia. rewrite (N.div_small c 256) by lia. rewrite (N.div_small c 65536) by lia. rewrite (N.div_small c 16777216) by lia. cbn [flat_map]. unfold encode_char at 1. destruct (c <? 128)%N eqn:X; [reflexivity|lia]. }
  rewrite E. apply from_utf8_encode. unfold nulled. apply Forall_flat_map. eapply Forall_impl; [|exact F]. intros c L. cbn beta in L. apply Forall_cons; [unfold is_scalar; lia|]. repeat (apply Forall_cons; [reflexivity|]). constructor.
Qed.
Theorem C81_array t add items : Forall (Forall (fun c => (c < 128)%N)) items ->
  py_encode t (PyArrayU items) None true add = to_py (encode t OChar (Single (PreTokenized (map nulled items))) add).
Proof.
  intros F. unfold py_encode, sequence_input, pretok_input. assert (X : array_unicode (PyArrayU items) = Ok (map nulled items)); [|rewrite X; reflexivity].
  unfold array_unicode. induction F as [|s l L _ IH]; [reflexivity|]. cbn [map_res map]. rewrite (nulled_bytes _ L). cbn [bind]. rewrite IH. reflexivity.
Qed.

(** ** Examples and findings *)
Definition py_tokenizer : tokenizer :=
  mkTokenizer (fun _ => false) (fun _ => false) (fun _ => false) (fun n => n) None (wl_model (mkWL [([97], 0); ([98], 1); ([233], 2); ([63], 3)]%N [63%N])) None av_new None None.
Definition answer {A B} (k : A -> B) (r : res py_error A) : option B := match r with Ok a => Some (k a) | _ => None end.
Lemma look_answer {A B} (k : A -> B) r v : answer k r = Some v -> exists a, r = Ok a /\ k a = v.
Proof. destruct r; intros H; try discriminate. injection H as <-. eauto. Qed.

(** ["a", ("b", "e acute")] and [["a", "b"], (["b"], ["a", "a"])] . *)
Example C81_ex : Forall2 (says_input false) [PyStr [97%N]; PyTuple [PyStr [98%N]; PyStr [233%N]]] [Single (Raw [97%N]); Dual (Raw [98%N]) (Raw [233%N])] /\
  Forall2 (says_input true) [PyList [PyStr [97%N]; PyStr [98%N]; PyStr [98%N]]; PyTuple [PyList [PyStr [98%N]]; PyTuple [PyStr [97%N]; PyStr [97%N]]]]
    [Single (PreTokenized [[97]; [98]; [98]]%N); Dual (PreTokenized [[98%N]]) (PreTokenized [[97]; [97]]%N)] /\
  no_arrays (PyList [PyStr [97%N]; PyOther]) /\ (forall i, ~ says_input true (PyList [PyStr [97%N]; PyOther]) i) /\
  exists es, py_encode_batch false py_tokenizer [PyStr [97%N]; PyTuple [PyStr [98%N]; PyStr [233%N]]] false true [1; 0] = Ok es /\ map ids es = [[0]; [1; 2]]%N.
Proof.
  split; [|split; [|split; [|split]]].
  - repeat constructor.
  - repeat constructor.
  - repeat constructor.
  - intros i H. apply input_read in H. discriminate H.
  - apply look_answer. vm_compute. reflexivity.
Qed.

(** Two words: a sequence for [encode_batch], an error for [async_encode_batch]. *)
Theorem C81_two_words_refuted : exists o i es, says_input true o i /\
  py_encode_batch false py_tokenizer [o] true true [0] = Ok es /\ map ids es = [[0; 1]]%N /\
  py_async_encode_batch false py_tokenizer [o] true true [0] = Err EType.
Proof.
  destruct (look_answer (map ids) (py_encode_batch false py_tokenizer [PyList [PyStr [97%N]; PyStr [98%N]]] true true [0]) [[0; 1]]%N) as (es & E & K); [vm_compute; reflexivity|].
  exists (PyList [PyStr [97%N]; PyStr [98%N]]), (Single (PreTokenized [[97]; [98]]%N)), es. split; [repeat constructor|]. split; [exact E|]. split; [exact K|]. vm_compute. reflexivity.
Qed.
(** An array of two texts: a pair for [encode_batch], an error for [async_encode_batch]. *)
Theorem C81_array_pair_refuted : exists o es,
  py_encode_batch false py_tokenizer [o] false true [0] = Ok es /\ map ids es = [[0; 1]]%N /\
  py_async_encode_batch false py_tokenizer [o] false true [0] = Err EType.
Proof.
  destruct (look_answer (map ids) (py_encode_batch false py_tokenizer [PyArrayU [[97]; [98]]%N] false true [0]) [[0; 1]]%N) as (es & E & K); [vm_compute; reflexivity|].
  exists (PyArrayU [[97]; [98]]%N), es. split; [exact E|]. split; [exact K|]. vm_compute. reflexivity.
Qed.
(** [async_encode] of "e acute" gives other offsets than [encode]. *)
Theorem C81_async_refuted : exists o x e e', says_sequence false o x /\
  py_encode py_tokenizer o None false true = Ok e /\ py_async_encode py_tokenizer o None false true = Ok e' /\ ids e' = ids e /\ offsets e = [(0, 1)] /\ offsets e' = [(0, 2)].
Proof.
  destruct (look_answer (fun e => (ids e, offsets e)) (py_encode py_tokenizer (PyStr [233%N]) None false true) ([2%N], [(0, 1)])) as (e & E & K); [vm_compute; reflexivity|].
  destruct (look_answer (fun e => (ids e, offsets e)) (py_async_encode py_tokenizer (PyStr [233%N]) None false true) ([2%N], [(0, 2)])) as (e' & E' & K'); [vm_compute; reflexivity|].
  injection K as K1 K2. injection K' as K3 K4. exists (PyStr [233%N]), (Raw [233%N]), e, e'. split; [repeat constructor|]. split; [exact E|]. split; [exact E'|]. split; [congruence|auto].
Qed.
(** An array of dtype [U] is not encoded as the list of the same words; with an accent it is an error. *)
Theorem C81_array_refuted : exists e e', py_encode py_tokenizer (PyList [PyStr [97%N]; PyStr [98%N]]) None true true = Ok e /\ ids e = [0; 1]%N /\
  py_encode py_tokenizer (PyArrayU [[97]; [98]]%N) None true true = Ok e' /\ ids e' = [3; 3]%N /\
  py_encode py_tokenizer (PyArrayU [[233%N]]) None true true = Err EType.
Proof.
  destruct (look_answer ids (py_encode py_tokenizer (PyList [PyStr [97%N]; PyStr [98%N]]) None true true) [0; 1]%N) as (e & E & K); [vm_compute; reflexivity|].
  destruct (look_answer ids (py_encode py_tokenizer (PyArrayU [[97]; [98]]%N) None true true) [3; 3]%N) as (e' & E' & K'); [vm_compute; reflexivity|].
  exists e, e'. split; [exact E|]. split; [exact K|]. split; [exact E'|]. split; [exact K'|]. vm_compute. reflexivity.
Qed.
(** The four bytes of a code point are read as UTF-8: U+4E2D is encoded as the text "-N" with
    two NULs. *)
Theorem C81_array_bytes_refuted t add : py_encode t (PyArrayU [[20013%N]]) None true add = py_encode t (PyList [PyStr [45; 78; 0; 0]%N]) None true add.
Proof. reflexivity. Qed.
