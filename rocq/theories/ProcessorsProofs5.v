(** The number and order of the tokens produced by any accurate processor. *)
From Verif Require Import Base AMap ListFacts EncodingModel EncodingSpec EncodingProofs EncodingProofs2
  EncodingProofs3 ByteLevelModel ProcessorsModel ProcessorsSpec ProcessorsProofs ProcessorsProofs2 ProcessorsProofs3
  ProcessorsProofs4.

(** ** Subsequences *)
Lemma subseq_refl {A} (l : list A) : subseq l l.
Proof. induction l; constructor; assumption. Qed.

Lemma subseq_nil_l {A} (l : list A) : subseq [] l.
Proof. induction l; constructor; assumption. Qed.

Lemma subseq_trans {A} (a b c : list A) : subseq a b -> subseq b c -> subseq a c.
Proof.
  intros H1 H2. revert a H1. induction H2 as [|x l l' H2 IH|x l l' H2 IH]; intros a H1.
  - exact H1.
  - inversion H1; subst; constructor; apply IH; assumption.
  - constructor. apply IH, H1.
Qed.

Lemma subseq_app {A} (a b c d : list A) : subseq a b -> subseq c d -> subseq (a ++ c) (b ++ d).
Proof. induction 1; intros H2; cbn; [exact H2|constructor; auto..]. Qed.

Lemma subseq_wrap {A} (pre l post : list A) : subseq l (pre ++ l ++ post).
Proof.
  change l with ([] ++ l) at 1. apply subseq_app; [apply subseq_nil_l|].
  rewrite <- (app_nil_r l) at 1. apply subseq_app; [apply subseq_refl|apply subseq_nil_l].
Qed.

(** ** Keys *)
Definition keys3 (i : list N) (t : list (list N)) (w : list (option N)) : list (N * list N * option N) :=
  combine (combine i t) w.

Lemma keys_eq e : same_lengths e -> keys e = keys3 (ids e) (tokens e) (words e).
Proof.
  destruct e as [i ty tk w of sm am o m]. unfold same_lengths, enc_len, keys, rows, keys3; unfold_enc.
  intros (H1 & H2 & H3 & H4 & H5 & H6). clear o m.
  revert ty tk w of sm am H1 H2 H3 H4 H5 H6;
    induction i as [|i0 i IH]; intros [|] [|] [|] [|] [|] [|] H1 H2 H3 H4 H5 H6; cbn in *; try discriminate;
    try reflexivity; f_equal; apply IH; congruence.
Qed.

Lemma keys_length e : same_lengths e -> length (keys e) = enc_len e.
Proof. intros H. unfold keys. rewrite map_length. apply rows_length, H. Qed.

Lemma keys3_app i1 t1 w1 i2 t2 w2 : length i1 = length t1 -> length i1 = length w1 ->
  keys3 (i1 ++ i2) (t1 ++ t2) (w1 ++ w2) = keys3 i1 t1 w1 ++ keys3 i2 t2 w2.
Proof. intros H1 H2. unfold keys3. rewrite !combine_app; [reflexivity| |]; rewrite ?combine_length; lia. Qed.

(** ** Following a transformed encoding *)
(** [x] is [e] ([all = false]), or any of its nodes. *)
Definition sel (all : bool) (e x : encoding) : Prop := if all then node e x else x = e.

Lemma sel_node all e x : sel all e x -> node e x.
Proof. destruct all; cbn; [auto|]. intros ->. constructor. Qed.

Definition follows (pre post : list (N * list N * option N)) (e' e : encoding) : Prop :=
  parallel e' /\
  forall all x, sel all e' x -> exists y, sel all e y /\ keys x = pre ++ keys y ++ post.

Lemma follows_refl e : parallel e -> follows [] [] e e.
Proof. intros H. split; [exact H|]. intros all x Hx. exists x. split; [exact Hx|]. cbn. rewrite app_nil_r. reflexivity. Qed.

Lemma follows_trans p1 q1 p2 q2 a b c :
  follows p1 q1 b a -> follows p2 q2 c b -> follows (p2 ++ p1) (q1 ++ q2) c a.
Proof.
  intros (P1 & H1) (P2 & H2). split; [exact P2|]. intros all x Hx.
  destruct (H2 all x Hx) as (y & Hy & Ey). destruct (H1 all y Hy) as (z & Hz & Ez).
  exists z. split; [exact Hz|]. rewrite Ey, Ez, !app_assoc. reflexivity.
Qed.

(** One level: the encoding itself and its overflowing ones. *)
Lemma follows_intro pre post e' e :
  same_lengths e' -> keys e' = pre ++ keys e ++ post ->
  (forall o', In o' (overflowing e') -> exists o, In o (overflowing e) /\ follows pre post o' o) ->
  follows pre post e' e.
Proof.
  intros HS Hk Ho. split.
  - constructor; [exact HS|]. apply Forall_forall. intros o' Hin. destruct (Ho o' Hin) as (o & _ & F). apply F.
  - intros [|] x Hx; cbn [sel] in *; [|subst x; exists e; split; [reflexivity|exact Hk]].
    inversion Hx as [|o' y Hin Hn]; subst.
    + exists e. split; [constructor|exact Hk].
    + destruct (Ho o' Hin) as (o & Hin' & (_ & F)). destruct (F true x Hn) as (y & Hy & Ey).
      exists y. split; [eapply node_over; eassumption|exact Ey].
Qed.

Lemma follows_flat pre post e' e :
  same_lengths e' -> overflowing e' = [] -> keys e' = pre ++ keys e ++ post -> follows pre post e' e.
Proof. intros HS Ho Hk. apply follows_intro; [exact HS|exact Hk|]. rewrite Ho. intros o' []. Qed.

Definition tkey (t : list N * N) : N * list N * option N := (snd t, fst t, None).

Lemma surround_follows first last s ty e : same_lengths e -> length ty = enc_len e + 2 ->
  forall over, same_lengths (surround first last s ty e over) /\
  keys (surround first last s ty e over) = [tkey first] ++ keys e ++ [tkey last].
Proof.
  intros HS Ht over.
  assert (S' : same_lengths (surround first last s ty e over)).
  { destruct HS as (H1 & H2 & H3 & H4 & H5 & H6). unfold same_lengths, surround, enc_len in *; unfold_enc.
    rewrite !app_length, !repeat_length; cbn [length]. lia. }
  split; [exact S'|]. rewrite (keys_eq _ S'). unfold surround; unfold_enc.
  destruct HS as (H1 & H2 & H3 & H4 & H5 & H6). unfold enc_len in *.
  rewrite !keys3_app; try reflexivity; try (cbn; lia); try lia.
  rewrite keys_eq by (repeat split; assumption). reflexivity.
Qed.

Lemma bert_tail_follows sep e : same_lengths e ->
  forall over, same_lengths (bert_tail sep e over) /\ keys (bert_tail sep e over) = [] ++ keys e ++ [tkey sep].
Proof.
  intros HS over.
  assert (S' : same_lengths (bert_tail sep e over)).
  { destruct HS as (H1 & H2 & H3 & H4 & H5 & H6). unfold same_lengths, bert_tail, enc_len in *; unfold_enc.
    rewrite !app_length, !repeat_length; cbn [length]. lia. }
  split; [exact S'|]. rewrite (keys_eq _ S'). unfold bert_tail; unfold_enc.
  destruct HS as (H1 & H2 & H3 & H4 & H5 & H6). unfold enc_len in *.
  rewrite !keys3_app; try reflexivity; try (cbn; lia); try lia.
  rewrite keys_eq by (repeat split; assumption). reflexivity.
Qed.

Lemma roberta_tail_follows sep e : same_lengths e ->
  forall over, same_lengths (roberta_tail sep e over) /\
  keys (roberta_tail sep e over) = [tkey sep] ++ keys e ++ [tkey sep].
Proof.
  intros HS over.
  assert (S' : same_lengths (roberta_tail sep e over)).
  { destruct HS as (H1 & H2 & H3 & H4 & H5 & H6). unfold same_lengths, roberta_tail, enc_len in *; unfold_enc.
    rewrite !app_length, !repeat_length; cbn [length]. lia. }
  split; [exact S'|]. rewrite (keys_eq _ S'). unfold roberta_tail; unfold_enc.
  destruct HS as (H1 & H2 & H3 & H4 & H5 & H6). unfold enc_len in *.
  rewrite !keys3_app; try reflexivity; try (cbn; lia); try lia.
  rewrite keys_eq by (repeat split; assumption). reflexivity.
Qed.

Lemma parallel_over e o : parallel e -> In o (overflowing e) -> parallel o.
Proof. intros [_ H] Hin. rewrite Forall_forall in H. apply H, Hin. Qed.

Lemma bert_first_follows sep cls e : parallel e -> follows [tkey cls] [tkey sep] (bert_first sep cls e) e.
Proof.
  intros P. pose proof (same_lengths_parallel _ P) as HS.
  assert (L : forall x, same_lengths x -> length ([0%N] ++ type_ids x ++ [0%N]) = enc_len x + 2).
  { intros x (H1 & _). rewrite !app_length. cbn. lia. }
  unfold bert_first. destruct (surround_follows cls sep 0 _ e HS (L e HS) (map (fun o =>
    surround cls sep 0 ([0%N] ++ type_ids o ++ [0%N]) o []) (overflowing e))) as (A & B).
  apply follows_intro; [exact A|exact B|].
  cbn [overflowing surround]. intros o' Hin. apply in_map_iff in Hin. destruct Hin as (o & <- & Ho).
  exists o. split; [exact Ho|]. pose proof (same_lengths_parallel _ (parallel_over _ _ P Ho)) as HS'.
  destruct (surround_follows cls sep 0 _ o HS' (L o HS') []) as (A' & B').
  apply follows_flat; [exact A'|reflexivity|exact B'].
Qed.

Lemma bert_other_follows sep e : parallel e -> follows [] [tkey sep] (bert_other sep e) e.
Proof.
  intros P. pose proof (same_lengths_parallel _ P) as HS. unfold bert_other.
  destruct (bert_tail_follows sep e HS (map (fun o => bert_tail sep o []) (overflowing e))) as (A & B).
  apply follows_intro; [exact A|exact B|].
  cbn [overflowing bert_tail]. intros o' Hin. apply in_map_iff in Hin. destruct Hin as (o & <- & Ho).
  exists o. split; [exact Ho|]. pose proof (same_lengths_parallel _ (parallel_over _ _ P Ho)) as HS'.
  destruct (bert_tail_follows sep o HS' []) as (A' & B').
  apply follows_flat; [exact A'|reflexivity|exact B'].
Qed.

Lemma roberta_first_follows sep cls e : parallel e -> follows [tkey cls] [tkey sep] (roberta_first sep cls e) e.
Proof.
  intros P. pose proof (same_lengths_parallel _ P) as HS.
  assert (L : length ([0%N] ++ type_ids e ++ [0%N]) = enc_len e + 2).
  { destruct HS as (H1 & _). rewrite !app_length. cbn. lia. }
  unfold roberta_first. destruct (surround_follows cls sep 0 _ e HS L (map (fun o =>
    surround cls sep 0 (repeat 0%N (length (ids o) + 2)) o []) (overflowing e))) as (A & B).
  apply follows_intro; [exact A|exact B|].
  cbn [overflowing surround]. intros o' Hin. apply in_map_iff in Hin. destruct Hin as (o & <- & Ho).
  exists o. split; [exact Ho|]. pose proof (same_lengths_parallel _ (parallel_over _ _ P Ho)) as HS'.
  destruct (surround_follows cls sep 0 (repeat 0%N (length (ids o) + 2)) o HS' (repeat_length _ _) []) as (A' & B').
  apply follows_flat; [exact A'|reflexivity|exact B'].
Qed.

Lemma roberta_other_follows sep e : parallel e -> follows [tkey sep] [tkey sep] (roberta_other sep e) e.
Proof.
  intros P. pose proof (same_lengths_parallel _ P) as HS. unfold roberta_other.
  destruct (roberta_tail_follows sep e HS (map (fun o => roberta_tail sep o []) (overflowing e))) as (A & B).
  apply follows_intro; [exact A|exact B|].
  cbn [overflowing roberta_tail]. intros o' Hin. apply in_map_iff in Hin. destruct Hin as (o & <- & Ho).
  exists o. split; [exact Ho|]. pose proof (same_lengths_parallel _ (parallel_over _ _ P Ho)) as HS'.
  destruct (roberta_tail_follows sep o HS' []) as (A' & B').
  apply follows_flat; [exact A'|reflexivity|exact B'].
Qed.

(** Changing only type ids, ranges or offsets. *)
Lemma same_keys_follows e' e : parallel e -> same_lengths e' -> overflowing e' = overflowing e ->
  ids e' = ids e -> tokens e' = tokens e -> words e' = words e -> follows [] [] e' e.
Proof.
  intros P HS Ho Hi Ht Hw. apply follows_intro; [exact HS|..].
  - rewrite !keys_eq by (try exact HS; apply same_lengths_parallel, P).
    rewrite Hi, Ht, Hw. cbn. rewrite app_nil_r. reflexivity.
  - rewrite Ho. intros o Hin. exists o. split; [exact Hin|]. apply follows_refl. eapply parallel_over; eassumption.
Qed.

Lemma retype_follows ty e : parallel e -> follows [] [] (retype ty e) e.
Proof.
  intros P. apply same_keys_follows; try reflexivity; [exact P|].
  apply same_lengths_set_types, same_lengths_parallel, P.
Qed.

Lemma set_sequence_id_follows s e : parallel e -> follows [] [] (set_sequence_id e s) e.
Proof.
  intros P. apply same_keys_follows; try reflexivity; [exact P|].
  pose proof (same_lengths_parallel _ P) as HS. exact HS.
Qed.

Lemma process_offsets_follows is_ws aps e : parallel e -> follows [] [] (process_offsets is_ws aps e) e.
Proof.
  intros P. apply same_keys_follows; try reflexivity; [exact P|].
  apply process_offsets_same_lengths, same_lengths_parallel, P.
Qed.

(** A change of the encoding's own arrays and of the direct overflowing ones. *)
Lemma over_map_follows (h : encoding -> encoding) e :
  parallel e -> (forall o, parallel o -> follows [] [] (h o) o) ->
  follows [] [] (set_overflowing e (map h (overflowing e))) e.
Proof.
  intros P Hh. apply follows_intro.
  - exact (same_lengths_parallel _ P).
  - unfold keys. rewrite rows_set_overflowing. cbn. rewrite app_nil_r. reflexivity.
  - cbn [overflowing set_overflowing]. intros o' Hin. apply in_map_iff in Hin. destruct Hin as (o & <- & Ho).
    exists o. split; [exact Ho|]. apply Hh. eapply parallel_over; eassumption.
Qed.

Lemma trim_all_follows is_ws aps e : parallel e -> follows [] [] (trim_all is_ws aps e) e.
Proof.
  intros P. pose proof (process_offsets_follows is_ws aps e P) as F.
  apply (follows_trans [] [] [] [] e (process_offsets is_ws aps e)); [exact F|].
  apply over_map_follows; [apply F|]. intros o. apply process_offsets_follows.
Qed.

Lemma prepare_follows i e : parallel e -> follows [] [] (prepare i e) e.
Proof.
  intros P. unfold prepare. pose proof (set_sequence_id_follows i e P) as F1.
  pose proof (over_map_follows (fun o => set_sequence_id o i) _ (proj1 F1) (fun o => set_sequence_id_follows i o)) as F2.
  pose proof (follows_trans [] [] [] [] _ _ _ F1 F2) as F3. cbn [app] in F3.
  exact (follows_trans [] [] [] [] _ _ _ F3 (retype_follows (N.of_nat i) _ (proj1 F3))).
Qed.

(** ** Lists of encodings transformed one by one *)
Inductive wrapped : list encoding -> list encoding -> nat -> Prop :=
| wrapped_nil : wrapped [] [] 0
| wrapped_cons e o es outs pre post n :
    follows pre post o e -> wrapped es outs n ->
    wrapped (e :: es) (o :: outs) (length pre + length post + n).

Lemma wrapped_cons' e o es outs pre post n k :
  follows pre post o e -> wrapped es outs n -> k = length pre + length post + n ->
  wrapped (e :: es) (o :: outs) k.
Proof. intros F W ->. constructor; assumption. Qed.

Lemma wrapped_map (h : encoding -> encoding) es :
  (forall e, parallel e -> follows [] [] (h e) e) -> Forall parallel es -> wrapped es (map h es) 0.
Proof.
  intros Hh. induction 1 as [|e es P F IH]; cbn [map]; [constructor|].
  eapply wrapped_cons'; [apply Hh, P|exact IH|reflexivity].
Qed.

Lemma wrapped_parallel es outs n : wrapped es outs n -> Forall parallel outs.
Proof. induction 1; constructor; [apply H|assumption]. Qed.

Lemma wrapped_length es outs n : wrapped es outs n -> length outs = length es.
Proof. induction 1; cbn; congruence. Qed.

Lemma wrapped_trans a b c n m : wrapped a b n -> wrapped b c m -> wrapped a c (n + m).
Proof.
  intros H. revert c m. induction H as [|e o es outs pre post n F W IH]; intros c m Hc.
  - inversion Hc; subst. constructor.
  - inversion Hc as [|o' c0 ? cs pre' post' n' F' W']; subst.
    eapply wrapped_cons'; [exact (follows_trans _ _ _ _ _ _ _ F F')|exact (IH _ _ W')|].
    rewrite !app_length. lia.
Qed.

Lemma mapi_wrapped (h : nat -> encoding -> encoding) es :
  (forall i e, parallel e -> follows [] [] (h i e) e) -> Forall parallel es -> wrapped es (mapi h es) 0.
Proof.
  intros Hh. unfold mapi. generalize 0 at 1. intros k F. revert k.
  induction F as [|e es P F IH]; intros k; cbn [length seq combine map fst snd]; [constructor|].
  eapply wrapped_cons'; [apply Hh, P|exact (IH (S k))|reflexivity].
Qed.

(** ** Simple processors *)
Section simple_ind.
  Context (P : processor -> Prop)
    (Hb : forall sep cls, P (PBert sep cls)) (Hr : forall sep cls t a, P (PRoberta sep cls t a))
    (Hl : forall t a, P (PByteLevel t a)) (Hs : forall ps, Forall P ps -> P (PSequence ps)).
  Fixpoint simple_ind' (p : processor) (H : simple p) {struct H} : P p :=
    match H with
    | simple_bert sep cls => Hb sep cls
    | simple_roberta sep cls t a => Hr sep cls t a
    | simple_byte_level t a => Hl t a
    | simple_sequence ps F =>
        Hs ps ((fix go ps (F : Forall simple ps) : Forall P ps :=
                  match F with
                  | Forall_nil _ => Forall_nil P
                  | Forall_cons p Hp F' => Forall_cons p (simple_ind' p Hp) (go _ F')
                  end) ps F)
    end.
End simple_ind.

Section neutral_ind.
  Context (P : processor -> Prop)
    (Hl : forall t a, P (PByteLevel t a)) (Hs : forall ps, Forall P ps -> P (PSequence ps)).
  Fixpoint neutral_ind' (p : processor) (H : neutral p) {struct H} : P p :=
    match H with
    | neutral_byte_level t a => Hl t a
    | neutral_sequence ps F =>
        Hs ps ((fix go ps (F : Forall neutral ps) : Forall P ps :=
                  match F with
                  | Forall_nil _ => Forall_nil P
                  | Forall_cons p Hp F' => Forall_cons p (neutral_ind' p Hp) (go _ F')
                  end) ps F)
    end.
End neutral_ind.

Definition run_all (is_ws : N -> bool) (add : bool) :=
  fix run (ps : list processor) (es : list encoding) : res unit (list encoding) :=
    match ps with
    | [] => Ok es
    | p :: ps' => let! es' := process_encodings is_ws p es add in run ps' es'
    end.

Lemma process_sequence is_ws ps es add : process_encodings is_ws (PSequence ps) es add = run_all is_ws add ps es.
Proof. reflexivity. Qed.

Definition one_or_two (es : list encoding) (is_pair : bool) : Prop := length es = if is_pair then 2 else 1.

Definition count (p : processor) (is_pair add : bool) : nat := if add then added_tokens p is_pair else 0.

Lemma trim_wrapped is_ws (trim aps : bool) es : Forall parallel es ->
  wrapped es (if trim then map (trim_all is_ws aps) es else es) 0.
Proof.
  intros F. destruct trim.
  - apply wrapped_map; [apply trim_all_follows|exact F].
  - rewrite <- (map_id es) at 2. apply wrapped_map; [apply follows_refl|exact F].
Qed.

Lemma byte_level_wrapped is_ws trim aps es : Forall parallel es ->
  wrapped es (byte_level_process is_ws trim aps es) 0.
Proof.
  intros F. unfold byte_level_process. pose proof (trim_wrapped is_ws trim aps es F) as W.
  apply (wrapped_trans _ _ _ 0 0 W). apply mapi_wrapped; [|eapply wrapped_parallel, W].
  intros i e. apply set_sequence_id_follows.
Qed.

Lemma simple_wrapped is_ws add p : simple p -> forall es is_pair, one_or_two es is_pair -> Forall parallel es ->
  exists outs, process_encodings is_ws p es add = Ok outs /\ wrapped es outs (count p is_pair add).
Proof.
  intros HS. pattern p. apply simple_ind'; [intros sep cls|intros sep cls t a|intros t a|intros ps IH|exact HS]; clear p HS;
    intros es is_pair L F.
  - eexists. split; [reflexivity|]. unfold bert_process, count. destruct add.
    2:{ rewrite <- (map_id es) at 2. apply wrapped_map; [apply follows_refl|exact F]. }
    unfold one_or_two in L. destruct is_pair.
    + destruct es as [|e1 [|e2 [|]]]; try discriminate. inversion F as [|? ? P1 F']; subst. inversion F' as [|? ? P2 _]; subst.
      cbn [map_first map]. eapply wrapped_cons'; [apply bert_first_follows, P1|eapply wrapped_cons'; [apply bert_other_follows, P2|constructor|reflexivity]|reflexivity].
    + destruct es as [|e1 [|]]; try discriminate. inversion F as [|? ? P1 F']; subst.
      cbn [map_first map]. eapply wrapped_cons'; [apply bert_first_follows, P1|constructor|reflexivity].
  - eexists. split; [reflexivity|]. unfold roberta_process, count.
    pose proof (trim_wrapped is_ws t a es F) as W1.
    set (es1 := if t then map (trim_all is_ws a) es else es) in *.
    pose proof (wrapped_map (fun e => set_type_ids e (repeat 0%N (enc_len e))) es1 (fun e => retype_follows 0 e)
                  (wrapped_parallel _ _ _ W1)) as W2.
    pose proof (wrapped_trans _ _ _ _ _ W1 W2) as W3. cbn [Nat.add] in W3.
    set (es2 := map (fun e => set_type_ids e (repeat 0%N (enc_len e))) es1) in *.
    destruct add; [|exact W3].
    pose proof (wrapped_parallel _ _ _ W3) as P2. pose proof (wrapped_length _ _ _ W3) as L2.
    apply (wrapped_trans _ _ _ 0 _ W3). clearbody es2. clear -L L2 P2. unfold one_or_two in L. rewrite L in L2.
    destruct is_pair.
    + destruct es2 as [|e1 [|e2 [|]]]; try discriminate. inversion P2 as [|? ? P1 F']; subst. inversion F' as [|? ? P2' _]; subst.
      cbn [map_first map]. eapply wrapped_cons'; [apply roberta_first_follows, P1|eapply wrapped_cons'; [apply roberta_other_follows, P2'|constructor|reflexivity]|reflexivity].
    + destruct es2 as [|e1 [|]]; try discriminate. inversion P2 as [|? ? P1 F']; subst.
      cbn [map_first map]. eapply wrapped_cons'; [apply roberta_first_follows, P1|constructor|reflexivity].
  - eexists. split; [reflexivity|]. unfold count. destruct add; apply byte_level_wrapped, F.
  - rewrite process_sequence. revert es L F.
    induction IH as [|p ps Hp _ IH2]; intros es L F.
    + exists es. split; [reflexivity|]. unfold count. cbn. destruct add;
        rewrite <- (map_id es) at 2; apply wrapped_map; try apply follows_refl; exact F.
    + destruct (Hp es is_pair L F) as (mid & E1 & W1).
      destruct (IH2 mid) as (outs & E2 & W2).
      { unfold one_or_two in *. rewrite (wrapped_length _ _ _ W1). exact L. }
      { eapply wrapped_parallel, W1. }
      exists outs. split; [cbn [run_all]; rewrite E1; exact E2|].
      pose proof (wrapped_trans _ _ _ _ _ W1 W2) as W. unfold count in *. cbn [added_tokens map list_sum fold_right] in *.
      destruct add; exact W.
Qed.

Lemma neutral_wrapped is_ws add p : neutral p -> (forall b, added_tokens p b = 0) /\
  forall es, Forall parallel es -> exists outs, process_encodings is_ws p es add = Ok outs /\ wrapped es outs 0.
Proof.
  intros HS. pattern p. apply neutral_ind'; [intros t a|intros ps IH|exact HS]; clear p HS.
  - split; [reflexivity|]. intros es F. eexists. split; [reflexivity|]. apply byte_level_wrapped, F.
  - split.
    + intros b. cbn [added_tokens]. induction IH as [|p ps (Hp & _) _ IH2]; cbn [map list_sum fold_right]; [reflexivity|].
      rewrite Hp. exact IH2.
    + intros es F. rewrite process_sequence. revert es F.
      induction IH as [|p ps (_ & Hp) _ IH2]; intros es F.
      * exists es. split; [reflexivity|]. rewrite <- (map_id es) at 2; apply wrapped_map; try apply follows_refl; exact F.
      * destruct (Hp es F) as (mid & E1 & W1). destruct (IH2 mid) as (outs & E2 & W2); [eapply wrapped_parallel, W1|].
        exists outs. split; [cbn [run_all]; rewrite E1; exact E2|]. exact (wrapped_trans _ _ _ 0 0 W1 W2).
Qed.

(** ** Choosing nodes *)
Lemma wrapped_nodes es outs n : wrapped es outs n -> forall all xs, Forall2 (sel all) outs xs ->
  exists ys, Forall2 (sel all) es ys /\ Forall2 (fun y x => subseq (keys y) (keys x)) ys xs /\
             length (concat (map keys xs)) = length (concat (map keys ys)) + n.
Proof.
  induction 1 as [|e o es outs pre post n F W IH]; intros all xs HF.
  - inversion HF; subst. exists []. repeat split; constructor.
  - inversion HF as [|? x ? xs' Hx HF']; subst. destruct (IH all _ HF') as (ys & Hy & Hsub & Hlen).
    destruct F as (P & F). destruct (F all x Hx) as (y & Hny & Ek).
    exists (y :: ys). split; [constructor; assumption|]. split.
    + constructor; [rewrite Ek; apply subseq_wrap|exact Hsub].
    + cbn [map concat]. rewrite !app_length, Hlen, Ek, !app_length. lia.
Qed.

Lemma subseq_concat {A} (ls ls' : list (list A)) : Forall2 subseq ls ls' -> subseq (concat ls) (concat ls').
Proof. induction 1; cbn; [constructor|apply subseq_app; assumption]. Qed.

Lemma Forall2_map2 {A B C D} (P : A -> B -> Prop) (Q : C -> D -> Prop) f g l l' :
  (forall a b, P a b -> Q (f a) (g b)) -> Forall2 P l l' -> Forall2 Q (map f l) (map g l').
Proof. intros H. induction 1; cbn; constructor; auto. Qed.

Lemma Forall2_rev {A B} (P : A -> B -> Prop) l l' : Forall2 P l l' -> Forall2 P (rev l) (rev l').
Proof. induction 1; cbn; [constructor|]. apply Forall2_app; [assumption|constructor; [assumption|constructor]]. Qed.

(** [outs] keeps the tokens of [es] in order, one sequence after the other, and
    has [n] more tokens - for every choice of overflowing encodings. *)
Definition keeps (es outs : list encoding) (n : nat) : Prop :=
  forall all xs, Forall2 (sel all) outs xs ->
  exists ys, Forall2 (sel all) es ys /\
    (subseq (concat (map keys ys)) (concat (map keys xs)) \/
     subseq (concat (map keys (rev ys))) (concat (map keys xs))) /\
    length (concat (map keys xs)) = length (concat (map keys ys)) + n.

Lemma wrapped_keeps es outs n : wrapped es outs n -> keeps es outs n.
Proof.
  intros W all xs F. destruct (wrapped_nodes _ _ _ W all xs F) as (ys & H1 & H2 & H3). exists ys. split; [exact H1|].
  split; [left|exact H3]. apply subseq_concat. eapply Forall2_map2; [|exact H2]. auto.
Qed.

Lemma keeps_after es mid outs n m : wrapped es mid n -> keeps mid outs m -> keeps es outs (n + m).
Proof.
  intros W K all xs F. destruct (K all xs F) as (ms & H1 & H2 & H3).
  destruct (wrapped_nodes _ _ _ W all ms H1) as (ys & G1 & G2 & G3). exists ys. split; [exact G1|]. split; [|lia].
  destruct H2 as [H2|H2]; [left|right]; (eapply subseq_trans; [|exact H2]); apply subseq_concat.
  - eapply Forall2_map2; [|exact G2]. auto.
  - eapply Forall2_map2; [|apply Forall2_rev, G2]. auto.
Qed.

Lemma keeps_before es mid outs n m : keeps es mid n -> wrapped mid outs m -> keeps es outs (n + m).
Proof.
  intros K W all xs F. destruct (wrapped_nodes _ _ _ W all xs F) as (ms & G1 & G2 & G3).
  destruct (K all ms G1) as (ys & H1 & H2 & H3). exists ys. split; [exact H1|]. split; [|lia].
  assert (S' : subseq (concat (map keys ms)) (concat (map keys xs))).
  { apply subseq_concat. eapply Forall2_map2; [|exact G2]. auto. }
  destruct H2 as [H2|H2]; [left|right]; eapply subseq_trans; eassumption.
Qed.

(** ** Templates *)
Definition specials_found (m : list (list N * special)) (tpl : list piece) : Prop :=
  forall name ty, In (PSpecial name ty) tpl -> exists sp, get_special name m = Some sp.

Lemma special_encoding_keys sp ty : length (sp_ids sp) = length (sp_tokens sp) ->
  parallel (special_encoding sp ty) /\ length (keys (special_encoding sp ty)) = length (sp_ids sp).
Proof.
  intros H. rewrite (special_encoding_rows _ _ H). split.
  - constructor; [apply of_rows_same_lengths|constructor].
  - unfold keys. rewrite rows_of_rows, !map_length, combine_length. lia.
Qed.

Definition sum_keys (f : nat -> encoding) (is : list nat) : nat := list_sum (map (fun i => length (keys (f i))) is).

Lemma template_keeps add m tpl : special_ok m -> forall es,
  NoDup (used tpl) -> Forall parallel es -> (add = true -> specials_found m tpl) ->
  (forall i, In i (used tpl) -> i < length es) ->
  exists outs, apply_template m tpl es add = Ok outs /\ Forall parallel outs /\
    forall all xs, Forall2 (sel all) outs xs -> exists f,
      (forall i e, nth_error es i = Some e -> sel all e (f i)) /\
      subseq (concat (map (fun i => keys (f i)) (used tpl))) (concat (map keys xs)) /\
      length (concat (map keys xs)) = sum_keys f (used tpl) + (if add then count_added tpl (Some m) else 0).
Proof.
  intros Sp. induction tpl as [|[q ty|name ty] tpl IH]; intros es ND P Fd B.
  - exists []. split; [reflexivity|]. split; [constructor|]. intros all xs F. inversion F; subst.
    exists (fun i => nth i es empty_enc). split; [|split].
    + intros i e E. rewrite (nth_error_nth _ _ empty_enc E). destruct all; cbn; constructor.
    + constructor.
    + destruct add; reflexivity.
  - cbn [used flat_map app] in *. fold (used tpl) in *. set (i := seq_index q) in *.
    inversion ND as [|? ? Ni ND']; subst.
    destruct (nth_error es i) as [e|] eqn:Ee.
    2:{ apply nth_error_None in Ee. specialize (B i (or_introl eq_refl)). lia. }
    assert (Pe : parallel e) by (rewrite Forall_forall in P; apply P; eapply nth_error_In, Ee).
    set (e' := set_sequence_id (set_type_ids e (repeat ty (enc_len e))) i).
    assert (Fe : follows [] [] e' e).
    { pose proof (retype_follows ty e Pe) as F1.
      exact (follows_trans [] [] [] [] _ _ _ F1 (set_sequence_id_follows i _ (proj1 F1))). }
    destruct (IH (update es i e')) as (outs & Ea & Po & Hn).
    { exact ND'. }
    { apply Forall_forall. intros x Hx. apply In_nth_error in Hx. destruct Hx as (j & Hj).
      destruct (Nat.eq_dec i j) as [<-|Nij].
      - rewrite (nth_error_update_same _ _ _ _ Ee) in Hj. injection Hj as <-. apply Fe.
      - rewrite nth_error_update_other in Hj by exact Nij. rewrite Forall_forall in P. apply P. eapply nth_error_In, Hj. }
    { intros Ha n t Hin. apply (Fd Ha n t). right; exact Hin. }
    { intros j Hj. replace (length (update es i e')) with (length es); [apply B; right; exact Hj|].
      clear. generalize i. induction es as [|x es IH]; intros [|k]; cbn; auto. }
    exists (e' :: outs). split.
    { cbn [apply_template]. fold i. rewrite Ee. cbn [of_option bind]. fold e'. rewrite Ea. reflexivity. }
    split; [constructor; [apply Fe|exact Po]|].
    intros all xs F. inversion F as [|? x ? xs' Hx F']; subst.
    destruct (Hn all xs' F') as (f & Hf & Hsub & Hlen). destruct Fe as (_ & Fe). destruct (Fe all x Hx) as (y & Hy & Ek).
    cbn [app] in Ek. rewrite app_nil_r in Ek.
    exists (fun j => if j =? i then y else f j).
    assert (Ext : map (fun j => keys (if j =? i then y else f j)) (used tpl) = map (fun j => keys (f j)) (used tpl)).
    { apply map_ext_in. intros j Hj. destruct (Nat.eqb_spec j i) as [->|]; [contradiction|reflexivity]. }
    split; [|split].
    + intros j e0 E0. destruct (Nat.eqb_spec j i) as [->|Nij].
      * rewrite Ee in E0. injection E0 as <-. exact Hy.
      * apply Hf. rewrite nth_error_update_other by congruence. exact E0.
    + cbn [map concat]. rewrite Nat.eqb_refl, Ext, Ek. apply subseq_app; [apply subseq_refl|exact Hsub].
    + cbn [map concat]. rewrite app_length, Hlen, Ek. unfold sum_keys. cbn [map list_sum fold_right].
      rewrite Nat.eqb_refl.
      assert (Ext2 : map (fun j => length (keys (if j =? i then y else f j))) (used tpl) = map (fun j => length (keys (f j))) (used tpl)).
      { apply map_ext_in. intros j Hj. destruct (Nat.eqb_spec j i) as [->|]; [contradiction|reflexivity]. }
      rewrite Ext2. unfold count_added. cbn [map list_sum fold_right]. destruct add; unfold list_sum; lia.
  - change (used (PSpecial name ty :: tpl)) with (used tpl) in *. cbn [apply_template].
    destruct (IH es ND P) as (outs & Ea & Po & Hn).
    { intros Ha n t Hin. apply (Fd Ha n t). right; exact Hin. }
    { exact B. }
    destruct add.
    + destruct (Fd eq_refl name ty) as (sp & Es); [left; reflexivity|].
      destruct (special_encoding_keys sp ty (Sp _ _ (get_special_in _ _ _ Es))) as (Pe & Le).
      exists (special_encoding sp ty :: outs). split; [rewrite Es; cbn [of_option bind]; rewrite Ea; reflexivity|].
      split; [constructor; assumption|].
      intros all xs F. inversion F as [|? x ? xs' Hx F']; subst. apply sel_node, node_no_over in Hx; [|reflexivity]. subst x.
      destruct (Hn all xs' F') as (f & Hf & Hsub & Hlen). exists f. split; [exact Hf|]. split.
      * cbn [map concat]. change (concat (map (fun i => keys (f i)) (used tpl))) with ([] ++ concat (map (fun i => keys (f i)) (used tpl))).
        apply subseq_app; [apply subseq_nil_l|exact Hsub].
      * cbn [map concat]. rewrite app_length, Hlen, Le. unfold count_added. cbn [map list_sum fold_right].
        rewrite Es. unfold list_sum. lia.
    + exists outs. split; [exact Ea|]. split; [exact Po|exact Hn].
Qed.

(** What the builder guarantees. *)
Lemma validate_specials b : validate b = Ok tt ->
  (forall t m, tb_single b = Some t -> tb_special b = Some m -> specials_found m t) /\
  (forall t m, tb_pair b = Some t -> tb_special b = Some m -> specials_found m t) /\
  (tb_special b = None -> (forall t, tb_single b = Some t -> specials_found [] t) /\
                          (forall t, tb_pair b = Some t -> specials_found [] t)).
Proof.
  unfold validate.
  destruct (negb match tb_pair b with None => true | Some p => existsb (is_seq SeqA) p && existsb (is_seq SeqB) p end);
    [discriminate|].
  match goal with |- context [forallb ?f ?l] => destruct (forallb f l) eqn:E; [|discriminate]; set (g := f) in * end.
  intros _. rewrite forallb_forall in E.
  assert (K : forall t, tb_single b = Some t \/ tb_pair b = Some t -> forall n ty, In (PSpecial n ty) t -> g (PSpecial n ty) = true).
  { intros t Ht n ty Hin. apply E. apply in_or_app. destruct Ht as [-> | ->]; auto. }
  clear E. split; [|split].
  - intros t m Et Em n ty Hin. specialize (K t (or_introl Et) n ty Hin). unfold g in K. rewrite Em in K.
    destruct (get_special n m); [eauto|discriminate].
  - intros t m Et Em n ty Hin. specialize (K t (or_intror Et) n ty Hin). unfold g in K. rewrite Em in K.
    destruct (get_special n m); [eauto|discriminate].
  - intros En. split; intros t Et n ty Hin; exfalso;
      [specialize (K t (or_introl Et) n ty Hin)|specialize (K t (or_intror Et) n ty Hin)];
      unfold g in K; rewrite En in K; discriminate.
Qed.

Lemma build_sound b t : build b = Ok t ->
  specials_found (tm_special t) (tm_single t) /\ specials_found (tm_special t) (tm_pair t) /\
  tm_added_single t = count_added (tm_single t) (Some (tm_special t)) /\
  tm_added_pair t = count_added (tm_pair t) (Some (tm_special t)).
Proof.
  unfold build. intros H. apply bind_ok in H. destruct H as (u & V & E). destruct u. injection E as <-.
  cbn [tm_special tm_single tm_pair tm_added_single tm_added_pair].
  destruct (validate_specials b V) as (V1 & V2 & V3).
  assert (CN : forall t, specials_found [] t -> count_added t None = count_added t (Some [])).
  { intros t _. unfold count_added. f_equal. }
  unfold default_added. destruct (tb_single b) as [s|], (tb_pair b) as [p|], (tb_special b) as [m|];
    repeat split; try reflexivity; try (eapply V1; reflexivity); try (eapply V2; reflexivity);
    try (apply (proj1 (V3 eq_refl)); reflexivity); try (apply (proj2 (V3 eq_refl)); reflexivity); try (intros n ty [E|[]]; discriminate); try (intros n ty [E|[E|[]]]; discriminate).
Qed.

(** ** Accurate processors *)
Lemma node_same e x : parallel e -> node e x -> same_lengths x.
Proof. apply parallel_node. Qed.

Lemma run_all_app is_ws add ps1 ps2 es : run_all is_ws add (ps1 ++ ps2) es = let! mid := run_all is_ws add ps1 es in run_all is_ws add ps2 mid.
Proof.
  revert es; induction ps1 as [|p ps1 IH]; intros es; [reflexivity|]. cbn [app run_all].
  destruct (process_encodings is_ws p es add); cbn [bind]; [apply IH|reflexivity|reflexivity].
Qed.

Lemma template_accurate is_ws b t add es is_pair :
  build b = Ok t -> special_ok (tm_special t) -> uses_once (tm_single t) false -> uses_once (tm_pair t) true ->
  one_or_two es is_pair -> Forall parallel es ->
  exists outs, process_encodings is_ws (PTemplate t) es add = Ok outs /\ Forall parallel outs /\
    keeps es outs (count (PTemplate t) is_pair add).
Proof.
  intros Hb Sp U1 U2 L P. destruct (build_sound b t Hb) as (S1 & S2 & A1 & A2).
  cbn [process_encodings]. unfold template_process, count, added_tokens. unfold one_or_two in L.
  destruct is_pair.
  - destruct es as [|e1 [|e2 [|]]]; try discriminate.
    assert (ND : NoDup (used (tm_pair t))) by (destruct U2 as [-> | ->]; repeat constructor; cbn; lia).
    destruct (template_keeps add (tm_special t) (tm_pair t) Sp [e1; e2] ND P (fun _ => S2)) as (outs & E & Po & K).
    { intros i Hi. destruct U2 as [U2|U2]; rewrite U2 in Hi; cbn in *; lia. }
    exists outs. split; [exact E|]. split; [exact Po|]. intros all xs F. destruct (K all xs F) as (f & Hf & Hsub & Hlen).
    exists [f 0; f 1]. split; [constructor; [apply (Hf 0 e1 eq_refl)|constructor; [apply (Hf 1 e2 eq_refl)|constructor]]|].
    rewrite A2. cbn [rev app map concat]. rewrite app_nil_r, app_length.
    destruct U2 as [U2|U2]; unfold sum_keys in Hlen; rewrite U2 in Hsub, Hlen; cbn [map concat list_sum fold_right] in Hsub, Hlen;
      rewrite app_nil_r in Hsub; (split; [|unfold list_sum in Hlen; cbn [fold_right] in Hlen; lia]);
      [left|right; rewrite app_nil_r]; exact Hsub.
  - destruct es as [|e1 [|]]; try discriminate.
    assert (ND : NoDup (used (tm_single t))) by (rewrite U1; repeat constructor; cbn; lia).
    destruct (template_keeps add (tm_special t) (tm_single t) Sp [e1] ND P (fun _ => S1)) as (outs & E & Po & K).
    { intros i Hi. rewrite U1 in Hi; cbn in *; lia. }
    exists outs. split; [exact E|]. split; [exact Po|]. intros all xs F. destruct (K all xs F) as (f & Hf & Hsub & Hlen).
    exists [f 0]. split; [constructor; [apply (Hf 0 e1 eq_refl)|constructor]|].
    rewrite A1. cbn [rev app map concat]. rewrite app_nil_r. unfold sum_keys in Hlen. rewrite U1 in Hsub, Hlen.
    cbn [map concat list_sum fold_right] in Hsub, Hlen. rewrite app_nil_r in Hsub.
    split; [left; exact Hsub|unfold list_sum in Hlen; cbn [fold_right] in Hlen; lia].
Qed.

Lemma accurate_keeps is_ws add p : accurate p -> forall es is_pair, one_or_two es is_pair -> Forall parallel es ->
  exists outs, process_encodings is_ws p es add = Ok outs /\ Forall parallel outs /\ keeps es outs (count p is_pair add).
Proof.
  intros A. induction A as [p Hs|b t Hb Sp U1 U2|ps1 p ps2 H1 A IH H2]; intros es is_pair L P.
  - destruct (simple_wrapped is_ws add p Hs es is_pair L P) as (outs & E & W).
    exists outs. split; [exact E|]. split; [eapply wrapped_parallel, W|apply wrapped_keeps, W].
  - eapply template_accurate; eassumption.
  - rewrite process_sequence, run_all_app.
    destruct (simple_wrapped is_ws add (PSequence ps1) (simple_sequence _ H1) es is_pair L P) as (mid & E1 & W1).
    rewrite process_sequence in E1. rewrite E1. cbn [bind run_all].
    destruct (IH mid is_pair) as (outs & E2 & Po & K).
    { unfold one_or_two in *. rewrite (wrapped_length _ _ _ W1). exact L. }
    { eapply wrapped_parallel, W1. }
    rewrite E2. cbn [bind].
    destruct (neutral_wrapped is_ws add (PSequence ps2) (neutral_sequence _ H2)) as (N0 & N1).
    destruct (N1 outs Po) as (outs' & E3 & W3). rewrite process_sequence in E3.
    exists outs'. split; [exact E3|]. split; [eapply wrapped_parallel, W3|].
    pose proof (keeps_before _ _ _ _ _ (keeps_after _ _ _ _ _ W1 K) W3) as KK.
    assert (C : count (PSequence (ps1 ++ p :: ps2)) is_pair add =
                count (PSequence ps1) is_pair add + count p is_pair add + 0).
    { unfold count. destruct add; [|reflexivity]. specialize (N0 is_pair). cbn [added_tokens] in *.
      rewrite map_app, list_sum_app. cbn [map]. change (list_sum (added_tokens p is_pair :: map (fun q => added_tokens q is_pair) ps2))
        with (added_tokens p is_pair + list_sum (map (fun q => added_tokens q is_pair) ps2)). rewrite N0. lia. }
    rewrite C. exact KK.
Qed.

(** Keys of merged encodings. *)
Lemma merge_keys g xs : Forall parallel xs -> keys (merge g xs) = concat (map keys xs).
Proof.
  intros F. unfold keys. rewrite rows_merge by exact F.
  assert (H : forall ls acc, map token_key (fold_left (juxtapose g) ls acc) = map token_key acc ++ concat (map (map token_key) ls)).
  { induction ls as [|l ls IH]; intros acc; cbn [fold_left map concat]; [rewrite app_nil_r; reflexivity|].
    rewrite IH. unfold juxtapose. rewrite map_app, <- app_assoc. f_equal. f_equal.
    destruct g; [|reflexivity]. rewrite map_map. reflexivity. }
  rewrite H. cbn [map app]. rewrite map_map. reflexivity.
Qed.
