(** C45, C46, C54: what post-processors do. *)
From Verif Require Import Base AMap ListFacts EncodingModel EncodingSpec EncodingProofs EncodingProofs2
  EncodingProofs3 ByteLevelModel ProcessorsModel ProcessorsSpec ProcessorsProofs ProcessorsProofs2 ProcessorsProofs3
  ProcessorsProofs4 ProcessorsProofs5 ProcessorsProofs6.

Lemma keys_total ys : Forall same_lengths ys -> length (concat (map keys ys)) = list_sum (map enc_len ys).
Proof.
  induction 1 as [|y ys H F IH]; [reflexivity|]. cbn [map concat]. rewrite app_length, IH, (keys_length y H). reflexivity.
Qed.

Lemma sel_same all es ys : Forall parallel es -> Forall2 (sel all) es ys -> Forall same_lengths ys.
Proof.
  intros P F. induction F as [|e y es ys H F IH]; [constructor|]. inversion P; subst.
  constructor; [eapply node_same; [eassumption|eapply sel_node, H]|apply IH; assumption].
Qed.

(** ** C45 *)

(** Whatever the encodings, an accurate processor never fails; its output and
    every overflowing encoding of it has exactly the announced number of added
    tokens (none without special tokens) and keeps the input tokens. *)
Theorem C45_accurate : forall is_ws p a b add,
  accurate p -> parallel a -> opt_parallel b ->
  exists out, process is_ws p a b add = Ok out /\ parallel out /\
    let n := if add then added_tokens p (is_some b) else 0 in
    extends (given a b) out n /\
    forall x, node out x -> exists a' b', node a a' /\ opt_node b b' /\ extends (given a' b') x n.
Proof.
  intros is_ws p a b add A Pa Pb.
  assert (PG : Forall parallel (given a b)) by (destruct b; [constructor; [exact Pa|constructor; [exact Pb|constructor]]|constructor; [exact Pa|constructor]]).
  set (es := mapi prepare (given a b)).
  assert (W : wrapped (given a b) es 0) by (apply mapi_wrapped; [apply prepare_follows|exact PG]).
  destruct (accurate_keeps is_ws add p A es (is_some b)) as (outs & E & Po & K).
  { unfold one_or_two. rewrite (wrapped_length _ _ _ W). destruct b; reflexivity. }
  { eapply wrapped_parallel, W. }
  pose proof (keeps_after _ _ _ _ _ W K) as KK. cbn [Nat.add] in KK. clear K.
  exists (merge false outs). split.
  { unfold process. change (match b with Some e2 => [a; e2] | None => [a] end) with (given a b).
    fold es. rewrite E. reflexivity. }
  split; [apply merge_parallel, Po|].
  change (if add then added_tokens p (is_some b) else 0) with (count p (is_some b) add).
  assert (G : forall all xs, Forall2 (sel all) outs xs -> forall x, same_lengths x -> keys x = concat (map keys xs) ->
     exists ys, Forall2 (sel all) (given a b) ys /\ extends ys x (count p (is_some b) add)).
  { intros all xs F x Sx Kx. destruct (KK all xs F) as (ys & Fy & Sub & Len). exists ys. split; [exact Fy|].
    unfold extends. rewrite Kx. split; [|exact Sub].
    rewrite <- (keys_length x Sx), Kx, Len, keys_total; [reflexivity|]. exact (sel_same all _ _ PG Fy). }
  split.
  - destruct (G false outs) with (x := merge false outs) as (ys & Fy & Ex).
    + clear. induction outs; constructor; [reflexivity|assumption].
    + apply same_lengths_parallel, merge_parallel, Po.
    + apply merge_keys, Po.
    + replace (given a b) with ys; [exact Ex|]. clear -Fy. induction Fy; [reflexivity|]. f_equal; [exact H|exact IHFy].
  - intros x Hx. destruct (merge_node _ _ _ Hx) as (xs & F & Ex).
    assert (Sx : same_lengths x) by (eapply node_same; [apply merge_parallel, Po|exact Hx]).
    assert (Sxs : Forall same_lengths xs) by (eapply (sel_same true); [exact Po|exact F]).
    destruct (G true xs F x Sx) as (ys & Fy & Ext).
    + transitivity (keys (flat x)); [reflexivity|]. rewrite Ex, merge_keys.
      * rewrite map_map. reflexivity.
      * apply Forall_map. eapply Forall_impl; [|exact Sxs]. intros y Hy. constructor; [exact Hy|constructor].
    + destruct b as [b|]; cbn [given] in *; inversion Fy as [|? y1 ? ys1 N1 F1]; subst; inversion F1 as [|? y2 ? ys2 N2 F2]; subst.
      * inversion F2; subst. exists y1, (Some y2). split; [exact N1|]. split; [exact N2|exact Ext].
      * exists y1, None. split; [exact N1|]. split; [exact I|exact Ext].
Qed.

(** What the builder accepts: both sequences in the pair template, every special
    token known, and the counts it announces are those of the templates. *)
Theorem C45_build : forall b t, build b = Ok t ->
  (forall name ty, In (PSpecial name ty) (tm_single t ++ tm_pair t) -> exists sp, get_special name (tm_special t) = Some sp) /\
  (exists ty, In (PSeq SeqA ty) (tm_pair t)) /\ (exists ty, In (PSeq SeqB ty) (tm_pair t)) /\
  tm_added_single t = count_added (tm_single t) (Some (tm_special t)) /\
  tm_added_pair t = count_added (tm_pair t) (Some (tm_special t)) /\
  deserialize (tm_single t) (tm_pair t) (tm_special t) = t.
Proof.
  intros b t H. destruct (build_sound b t H) as (S1 & S2 & A1 & A2).
  split; [intros name ty Hin; apply in_app_or in Hin; destruct Hin as [Hin|Hin]; [eapply S1|eapply S2]; exact Hin|].
  assert (Q : (exists ty, In (PSeq SeqA ty) (tm_pair t)) /\ (exists ty, In (PSeq SeqB ty) (tm_pair t))).
  { unfold build in H. apply bind_ok in H. destruct H as (u & V & E). injection E as <-. cbn [tm_pair].
    unfold validate in V. destruct (tb_pair b) as [p|].
    - destruct (existsb (is_seq SeqA) p && existsb (is_seq SeqB) p) eqn:EE; [|discriminate].
      apply andb_true_iff in EE. destruct EE as (E1 & E2). rewrite existsb_exists in E1, E2.
      destruct E1 as ([[|] t1|] & I1 & T1); try discriminate. destruct E2 as ([[|] t2|] & I2 & T2); try discriminate. eauto.
    - split; [exists 0%N|exists 1%N]; cbn; auto. }
  split; [apply Q|]. split; [apply Q|]. split; [exact A1|]. split; [exact A2|].
  unfold deserialize. rewrite <- A1, <- A2. destruct t; reflexivity.
Qed.

(** *** Examples *)
Definition ex_row (i : N) (ty : N) (o : nat * nat) : row := Row i ty [97%N] (Some 0%N) o 0 1.
Definition ex_plain (s : nat) (l : list row) : encoding := of_rows l [] [].
(** Three tokens, and an overflowing encoding of two tokens. *)
Definition ex_a : encoding :=
  of_rows [ex_row 10 0 (0, 1); ex_row 11 0 (1, 2); ex_row 12 0 (2, 3)]
          [of_rows [ex_row 13 0 (3, 4); ex_row 14 0 (4, 5)] [] []] [].
Definition ex_b : encoding := of_rows [ex_row 20 1 (0, 1)] [of_rows [ex_row 21 1 (1, 2)] [] []] [].

Lemma ex_a_fresh : fresh 0 ex_a.
Proof. split; [repeat constructor|]. constructor; [split; [repeat constructor|reflexivity]|constructor]. Qed.
Lemma ex_b_fresh : fresh 1 ex_b.
Proof. split; [repeat constructor|]. constructor; [split; [repeat constructor|reflexivity]|constructor]. Qed.

Definition CLS : list N * N := ([67%N], 101%N).
Definition SEP : list N * N := ([83%N], 102%N).
Definition no_ws (c : N) : bool := N.eqb c 32.
Definition spec_map : list (list N * special) := [special_single CLS; special_single SEP].
Definition ex_builder : template_builder :=
  mkBuilder (Some [PSpecial (fst CLS) 0; PSeq SeqA 0; PSpecial (fst SEP) 0])
            (Some [PSpecial (fst CLS) 0; PSeq SeqA 0; PSpecial (fst SEP) 0; PSeq SeqB 1; PSpecial (fst SEP) 1])
            (Some spec_map).
Definition ex_template : template :=
  mkTemplate [PSpecial (fst CLS) 0; PSeq SeqA 0; PSpecial (fst SEP) 0]
             [PSpecial (fst CLS) 0; PSeq SeqA 0; PSpecial (fst SEP) 0; PSeq SeqB 1; PSpecial (fst SEP) 1]
             2 3 spec_map.

Lemma ex_template_built : build ex_builder = Ok ex_template.
Proof. reflexivity. Qed.

Lemma spec_map_ok : special_ok spec_map.
Proof. intros name sp [E|[E|[]]]; injection E as <- <-; reflexivity. Qed.

Definition ex_processor : processor := PSequence [PByteLevel true true; PTemplate ex_template; PByteLevel false false].

Example C45_example_accurate :
  accurate ex_processor /\ parallel ex_a /\ opt_parallel (Some ex_b) /\ added_tokens ex_processor true = 3.
Proof.
  split.
  - apply (accurate_sequence [PByteLevel true true] (PTemplate ex_template) [PByteLevel false false]).
    + repeat constructor.
    + eapply accurate_template; [exact ex_template_built|exact spec_map_ok|reflexivity|left; reflexivity].
    + repeat constructor.
  - split; [apply (fresh_parallel 0), ex_a_fresh|]. split; [apply (fresh_parallel 1), ex_b_fresh|reflexivity].
Qed.

Example C45_example_sequence :
  accurate (PSequence [PBert SEP CLS; PSequence [PRoberta SEP CLS true true; PByteLevel true true]]).
Proof. apply accurate_simple. repeat constructor. Qed.

(** *** Where the announced count is wrong or processing panics *)

(** A processor that adds tokens after a template sees one encoding per piece, not
    one or two: it adds tokens to each of them. *)
Theorem C45_after_template_refuted : exists p a b out,
  p = PSequence [PTemplate ex_template; PBert SEP CLS] /\ fresh 0 a /\ fresh 1 b /\
  process no_ws p a (Some b) true = Ok out /\
  enc_len out <> enc_len a + enc_len b + added_tokens p true.
Proof.
  exists (PSequence [PTemplate ex_template; PBert SEP CLS]), ex_a, ex_b. eexists.
  split; [reflexivity|]. split; [apply ex_a_fresh|]. split; [apply ex_b_fresh|].
  split; [vm_compute; reflexivity|]. vm_compute. discriminate.
Qed.

(** Two templates in a sequence: the second one is given one encoding per piece of
    the first and panics. *)
Theorem C45_two_templates_refuted : exists t a,
  build ex_builder = Ok t /\ fresh 0 a /\
  process no_ws (PSequence [PTemplate t; PTemplate t]) a None true = Panic.
Proof. exists ex_template, ex_a. split; [reflexivity|]. split; [apply ex_a_fresh|]. vm_compute. reflexivity. Qed.

(** The builder accepts a single template that uses [$B]: it panics on any input. *)
Theorem C45_single_B_refuted : exists b t, build b = Ok t /\
  forall is_ws a add, process is_ws (PTemplate t) a None add = Panic.
Proof.
  exists (mkBuilder (Some [PSeq SeqB 0]) None None). eexists. split; [reflexivity|].
  intros is_ws a add. reflexivity.
Qed.

(** A deserialised template is not validated: a special token it does not define
    makes every call with special tokens panic. *)
Theorem C45_deserialised_refuted : exists single pair m,
  (forall b, build b <> Ok (deserialize single pair m)) /\
  forall is_ws a, process is_ws (PTemplate (deserialize single pair m)) a None true = Panic.
Proof.
  exists [PSeq SeqA 0; PSpecial (fst CLS) 0], [PSeq SeqA 0; PSeq SeqB 1], []. split.
  - intros b H. destruct (C45_build b _ H) as (K & _). destruct (K (fst CLS) 0%N) as (sp & E); [cbn; auto|].
    discriminate.
  - intros is_ws a. reflexivity.
Qed.

(** The setters leave the announced counts as they were. *)
Theorem C45_setter_refuted : exists t t' a out,
  build ex_builder = Ok t /\ t' = set_single t [PSeq SeqA 0] /\ fresh 0 a /\
  process no_ws (PTemplate t') a None true = Ok out /\
  enc_len out <> enc_len a + added_tokens (PTemplate t') false.
Proof.
  exists ex_template. eexists. exists ex_a. eexists. split; [reflexivity|]. split; [reflexivity|].
  split; [apply ex_a_fresh|]. split; [vm_compute; reflexivity|]. vm_compute. discriminate.
Qed.

(** A template that uses a sequence twice adds more than announced. *)
Theorem C45_twice_refuted : exists b t a out, build b = Ok t /\ fresh 0 a /\
  process no_ws (PTemplate t) a None true = Ok out /\
  enc_len out <> enc_len a + added_tokens (PTemplate t) false.
Proof.
  exists (mkBuilder (Some [PSeq SeqA 0; PSeq SeqA 0]) None None). eexists. exists ex_a. eexists.
  split; [reflexivity|]. split; [apply ex_a_fresh|]. split; [vm_compute; reflexivity|]. vm_compute. discriminate.
Qed.

(** ** C46 *)

Theorem C46_bert : forall is_ws sep cls a b, fresh 0 a -> opt_fresh b ->
  exists out, process is_ws (PBert sep cls) a b true = Ok out /\
    laid_out rows a b (bert_layout sep cls (is_some b)) out.
Proof. exact bert_laid_out. Qed.

Theorem C46_bert_bare : forall is_ws sep cls a b, fresh 0 a -> opt_fresh b ->
  exists out, process is_ws (PBert sep cls) a b false = Ok out /\
    laid_out rows a b (bare_layout (is_some b)) out.
Proof. exact bert_bare. Qed.

Theorem C46_roberta : forall is_ws sep cls trim aps a b, fresh 0 a -> opt_fresh b ->
  exists out, process is_ws (PRoberta sep cls trim aps) a b true = Ok out /\
    laid_out (seen is_ws trim aps) a b (roberta_layout sep cls (is_some b)) out.
Proof. exact roberta_laid_out. Qed.

Theorem C46_byte_level : forall is_ws trim aps a b add, fresh 0 a -> opt_fresh b ->
  exists out, process is_ws (PByteLevel trim aps) a b add = Ok out /\
    laid_out (seen is_ws trim aps) a b (bare_layout (is_some b)) out.
Proof. exact byte_level_laid_out. Qed.

(** A template: its pieces in order. The overflowing encodings are laid out the
    same way, except that an input there may keep the type id it came with. *)
Theorem C46_template : forall is_ws bld t a b (add : bool) segs,
  build bld = Ok t -> special_ok (tm_special t) -> fresh 0 a -> opt_fresh b ->
  uses_once (if is_some b then tm_pair t else tm_single t) (is_some b) ->
  (if add then template_layout (tm_special t) (if is_some b then tm_pair t else tm_single t) = Some segs
   else segs = template_layout_bare (if is_some b then tm_pair t else tm_single t)) ->
  exists out, process is_ws (PTemplate t) a b add = Ok out /\
    shows out (lay_out (both rows a b) segs) /\
    (forall x, node out x -> exists a' b' segs', node a a' /\ opt_node b b' /\ Forall2 relaxed segs segs' /\
       shows x (lay_out (both rows a' b') segs')).
Proof.
  intros is_ws bld t a b add segs _ Sp Fa Fb U L. apply template_laid_out; try assumption.
  - destruct b; cbn [is_some uses_once] in *; [destruct U as [-> | ->]|rewrite U]; repeat constructor; cbn; lia.
  - destruct b; cbn [is_some uses_once] in *; [destruct U as [-> | ->]|rewrite U]; discriminate.
  - intros s Hs. destruct b; cbn [is_some uses_once] in *; [destruct U as [U|U]; rewrite U in Hs|rewrite U in Hs]; cbn in *; lia.
  - unfold layout. destruct add; [exact L|rewrite L; reflexivity].
Qed.

(** With the usual type ids (those of the sequence numbers) the overflowing
    encodings follow the template exactly. *)
Theorem C46_template_usual : forall is_ws bld t a b segs,
  build bld = Ok t -> special_ok (tm_special t) -> fresh 0 a -> opt_fresh b ->
  uses_once (if is_some b then tm_pair t else tm_single t) (is_some b) ->
  template_layout (tm_special t) (if is_some b then tm_pair t else tm_single t) = Some segs ->
  (forall s ty, In (Input s ty) segs -> ty = N.of_nat s) ->
  exists out, process is_ws (PTemplate t) a b true = Ok out /\
    shows out (lay_out (both rows a b) segs) /\
    (forall x, node out x -> exists a' b', node a a' /\ opt_node b b' /\ shows x (lay_out (both rows a' b') segs)).
Proof.
  intros is_ws bld t a b segs Hb Sp Fa Fb U L T.
  destruct (C46_template is_ws bld t a b true segs Hb Sp Fa Fb U L) as (out & E & M & Nn).
  exists out. split; [exact E|]. split; [exact M|]. intros x Hx.
  destruct (Nn x Hx) as (a' & b' & segs' & Ha & Hb' & R & Sh). exists a', b'. split; [exact Ha|]. split; [exact Hb'|].
  rewrite (relaxed_exact segs segs') in Sh; [exact Sh| |exact R].
  apply Forall_forall. intros [toks ty|s ty] Hin; [exact I|]. apply T, Hin.
Qed.

(** A built template has a layout. *)
Theorem C46_template_total : forall bld t, build bld = Ok t ->
  exists segs1 segs2, template_layout (tm_special t) (tm_single t) = Some segs1 /\
                      template_layout (tm_special t) (tm_pair t) = Some segs2.
Proof.
  intros bld t H. destruct (build_sound bld t H) as (S1 & S2 & _).
  assert (K : forall tpl, specials_found (tm_special t) tpl -> exists segs, template_layout (tm_special t) tpl = Some segs).
  { induction tpl as [|[s ty|n ty] tpl IH]; intros F; cbn [template_layout]; [eauto|..].
    - destruct IH as (segs & ->); [intros n' t' Hin; apply (F n' t'); right; exact Hin|eauto].
    - destruct (F n ty) as (sp & ->); [left; reflexivity|].
      destruct IH as (segs & ->); [intros n' t' Hin; apply (F n' t'); right; exact Hin|eauto]. }
  destruct (K _ S1) as (segs1 & E1). destruct (K _ S2) as (segs2 & E2). eauto.
Qed.

Example C46_example : fresh 0 ex_a /\ opt_fresh (Some ex_b) /\ build ex_builder = Ok ex_template /\
  special_ok (tm_special ex_template) /\ uses_once (tm_pair ex_template) true /\
  template_layout (tm_special ex_template) (tm_pair ex_template) = Some (bert_layout SEP CLS true).
Proof.
  split; [apply ex_a_fresh|]. split; [apply ex_b_fresh|]. split; [reflexivity|]. split; [apply spec_map_ok|].
  split; [left; reflexivity|reflexivity].
Qed.

(** What the user sees for a pair, position by position. *)
Example C46_example_bert : exists out, process no_ws (PBert SEP CLS) ex_a (Some ex_b) true = Ok out /\
  map (fun i => token_to_sequence out i) (seq 0 8) = [None; Some 0; Some 0; Some 0; None; Some 1; None; None] /\
  type_ids out = [0; 0; 0; 0; 0; 1; 1]%N /\ ids out = [101; 10; 11; 12; 102; 20; 102]%N /\
  length (overflowing out) = 3.
Proof. eexists. split; [vm_compute; reflexivity|]. vm_compute. auto. Qed.

(** The overflowing encodings of a template's output do not get the type ids
    written in it. *)
Theorem C46_template_types_refuted : exists bld t a out x,
  build bld = Ok t /\ tm_single t = [PSeq SeqA 1] /\ fresh 0 a /\
  process no_ws (PTemplate t) a None true = Ok out /\ node out x /\
  type_ids out = repeat 1%N (enc_len out) /\ type_ids x = repeat 0%N (enc_len x) /\ 0 < enc_len x.
Proof.
  exists (mkBuilder (Some [PSeq SeqA 1]) None None). eexists. exists ex_a. do 2 eexists.
  split; [reflexivity|]. split; [reflexivity|]. split; [apply ex_a_fresh|].
  split; [vm_compute; reflexivity|]. split; [eapply node_over; [left; reflexivity|apply node_self]|].
  vm_compute. auto.
Qed.

(** RoBERTa without special tokens: type id 0 everywhere, except in the
    overflowing encodings of a pair. *)
Theorem C46_roberta_bare_refuted : exists a b out x,
  fresh 0 a /\ fresh 1 b /\ process no_ws (PRoberta SEP CLS false false) a (Some b) false = Ok out /\ node out x /\
  type_ids out = repeat 0%N (enc_len out) /\ In 1%N (type_ids x).
Proof.
  exists ex_a, ex_b. do 2 eexists. split; [apply ex_a_fresh|]. split; [apply ex_b_fresh|].
  split; [vm_compute; reflexivity|].
  split; [eapply node_over; [right; left; reflexivity|apply node_self]|]. vm_compute. auto 10.
Qed.

(** ByteLevel after a template numbers the pieces, not the input sequences: the
    added [SEP] is reported as a token of a third sequence. *)
Theorem C46_byte_level_after_template_refuted : exists t a out,
  build ex_builder = Ok t /\ fresh 0 a /\
  process no_ws (PSequence [PTemplate t; PByteLevel false false]) a None true = Ok out /\
  nth_error (ids out) 4 = Some (snd SEP) /\ token_to_sequence out 4 = Some 2.
Proof.
  exists ex_template, ex_a. eexists. split; [reflexivity|]. split; [apply ex_a_fresh|].
  split; [vm_compute; reflexivity|]. split; reflexivity.
Qed.

(** ** C54 *)

(** Trimming changes nothing but the offsets, and these stay ranges inside the
    previous ones. *)
Theorem C54_within : forall is_ws aps e, same_lengths e ->
  same_lengths (process_offsets is_ws aps e) /\
  enc_len (process_offsets is_ws aps e) = enc_len e /\
  sequence_ranges (process_offsets is_ws aps e) = sequence_ranges e /\
  overflowing (process_offsets is_ws aps e) = overflowing e /\
  forall i r, nth_error (rows e) i = Some r -> exists r',
    nth_error (rows (process_offsets is_ws aps e)) i = Some r' /\
    r_id r' = r_id r /\ r_type r' = r_type r /\ r_token r' = r_token r /\ r_word r' = r_word r /\
    r_special r' = r_special r /\ r_attention r' = r_attention r /\
    (fst (r_off r) <= snd (r_off r) ->
     fst (r_off r) <= fst (r_off r') /\ fst (r_off r') <= snd (r_off r') /\ snd (r_off r') <= snd (r_off r)).
Proof.
  intros is_ws aps e HS. split; [apply process_offsets_same_lengths, HS|]. split; [reflexivity|]. split; [reflexivity|].
  split; [reflexivity|]. intros i r Hr. eexists. split; [apply trim_row; [exact HS|exact Hr]|].
  cbn [r_id r_type r_token r_word r_special r_attention r_off]. repeat (split; [reflexivity|]).
  destruct (r_off r) as [s t]. cbn [fst snd]. intros Hle. unfold trim_one. cbn [fst snd].
  set (l := count_while _ (r_token r)). set (k := count_while _ (rev _)).
  set (l' := if (_ && _ && _) then 0 else l).
  destruct (0 <? l); cbn [fst snd]; destruct ((0 <? k) && (k <=? t)) eqn:E; cbn [fst snd]; lia.
Qed.

(** Exactly: [l] blanks are removed on the left and [k] on the right, as far as
    the range allows; one leading blank is kept when the tokenizer added it. *)
Theorem C54_exact : forall is_ws aps e i r l k, same_lengths e ->
  nth_error (rows e) i = Some r ->
  leads (is_blank is_ws) (r_token r) l -> leads (is_blank is_ws) (rev (r_token r)) k ->
  fst (r_off r) <= snd (r_off r) ->
  exists r', nth_error (rows (process_offsets is_ws aps e)) i = Some r' /\
    (((i = 0 \/ fst (r_off r) = 0) /\ aps = true /\ l = 1 -> k <= snd (r_off r) - fst (r_off r) ->
      r_off r' = (fst (r_off r), snd (r_off r) - k)) /\
     (~ ((i = 0 \/ fst (r_off r) = 0) /\ aps = true /\ l = 1) -> l + k <= snd (r_off r) - fst (r_off r) ->
      r_off r' = (fst (r_off r) + l, snd (r_off r) - k))).
Proof.
  intros is_ws aps e i r l k HS Hr Hl Hk Hle. eexists. split; [apply trim_row; [exact HS|exact Hr]|]. cbn [r_off].
  pose proof (count_while_leads (blank is_ws) (is_blank is_ws) (r_token r) (blank_iff is_ws)) as L1.
  pose proof (count_while_leads (blank is_ws) (is_blank is_ws) (rev (r_token r)) (blank_iff is_ws)) as L2.
  unfold trim_one. rewrite (leads_fun _ _ _ _ L1 Hl), (leads_fun _ _ _ _ L2 Hk). clear L1 L2.
  destruct (r_off r) as [s t]. cbn [fst snd] in *. split.
  - intros (Hf & -> & ->) Hlen. change (0 <? 1) with true. cbv iota.
    assert (B : ((i =? 0) || (s =? 0)) && true && (1 =? 1) = true) by (destruct Hf; subst; cbn; rewrite ?orb_true_r; reflexivity).
    rewrite B. cbn [fst snd]. destruct ((0 <? k) && (k <=? t)) eqn:E; f_equal; lia.
  - intros Nf Hlen. destruct (0 <? l) eqn:El; cbn [fst snd].
    + assert (B : ((i =? 0) || (s =? 0)) && aps && (l =? 1) = false).
      { destruct (((i =? 0) || (s =? 0)) && aps && (l =? 1)) eqn:E; [|reflexivity]. exfalso. apply Nf.
        apply andb_true_iff in E. destruct E as (E & E3). apply andb_true_iff in E. destruct E as (E1 & E2).
        apply orb_true_iff in E1. rewrite !Nat.eqb_eq in E1. apply Nat.eqb_eq in E3. auto. }
      rewrite B. destruct ((0 <? k) && (k <=? t)) eqn:E; cbn [fst snd]; f_equal; lia.
    + destruct ((0 <? k) && (k <=? t)) eqn:E; cbn [fst snd]; f_equal; lia.
Qed.

(** A token that neither starts nor ends with a blank keeps its offsets. *)
Theorem C54_untouched : forall is_ws aps e i r, same_lengths e ->
  nth_error (rows e) i = Some r ->
  (forall c, head (r_token r) = Some c -> ~ is_blank is_ws c) ->
  (forall c, head (rev (r_token r)) = Some c -> ~ is_blank is_ws c) ->
  nth_error (rows (process_offsets is_ws aps e)) i = Some r.
Proof.
  intros is_ws aps e i r HS Hr H1 H2. rewrite (trim_row _ _ _ _ _ HS Hr).
  assert (Z : forall l, (forall c, head l = Some c -> ~ is_blank is_ws c) -> count_while (blank is_ws) l = 0).
  { intros [|c l] H; [reflexivity|]. cbn. destruct (blank is_ws c) eqn:E; [|reflexivity].
    apply blank_iff in E. exfalso. exact (H c eq_refl E). }
  unfold trim_one. rewrite (Z _ H1), (Z _ H2). cbn. destruct r; reflexivity.
Qed.

Definition ex_blank : encoding :=
  of_rows [Row 1 0 [288; 97; 32]%N None (0, 3) 0 1; Row 2 0 [288; 288; 98]%N None (3, 6) 0 1; Row 3 0 [99]%N None (6, 7) 0 1] [] [].
Example C54_example : same_lengths ex_blank /\
  offsets (process_offsets no_ws true ex_blank) = [(0, 2); (5, 6); (6, 7)] /\
  offsets (process_offsets no_ws false ex_blank) = [(1, 2); (5, 6); (6, 7)] /\
  leads (is_blank no_ws) [288; 288; 98]%N 2.
Proof.
  split; [apply of_rows_same_lengths|]. split; [vm_compute; reflexivity|]. split; [vm_compute; reflexivity|].
  apply leads_go; [left; reflexivity|]. apply leads_go; [left; reflexivity|]. apply leads_stop.
  intros [E|E]; discriminate.
Qed.
