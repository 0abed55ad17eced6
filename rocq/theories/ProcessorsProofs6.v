(** Layouts of each processor; offsets trimming. *)
From Verif Require Import Base AMap ListFacts EncodingModel EncodingSpec EncodingProofs EncodingProofs2
  EncodingProofs3 ByteLevelModel ProcessorsModel ProcessorsSpec ProcessorsProofs ProcessorsProofs2 ProcessorsProofs3
  ProcessorsProofs4 ProcessorsProofs5.

Lemma top_node e x : top e x -> node e x.
Proof. intros [->|H]; [constructor|eapply node_over; [exact H|constructor]]. Qed.

Lemma fresh_top s e x : fresh s e -> node e x -> top e x.
Proof.
  intros (_ & F) H. inversion H as [|o y Hin Hn]; subst; [left; reflexivity|right].
  rewrite Forall_forall in F. destruct (F o Hin) as (_ & Eo). apply node_no_over in Hn; [|exact Eo]. subst. exact Hin.
Qed.

Lemma fresh_parallel s e : fresh s e -> parallel e.
Proof.
  intros ((A & _) & F). constructor; [exact A|]. eapply Forall_impl; [|exact F].
  intros o ((B & _) & E). constructor; [exact B|]. rewrite E. constructor.
Qed.

Lemma seen_maybe is_ws trim aps x : same_lengths x -> seen is_ws trim aps x = maybe_trim is_ws trim aps (rows x).
Proof. intros H. unfold seen, maybe_trim. destruct trim; [apply rows_process_offsets, H|reflexivity]. Qed.

Lemma fresh_node_same s e x : fresh s e -> node e x -> same_lengths x.
Proof. intros F N. eapply node_same; [eapply fresh_parallel, F|exact N]. Qed.

(** From dressed encodings to [laid_out]. *)
Section lay.
  Context (f : encoding -> list row) (t : list row -> list row)
          (w1 w2 : list row -> list row) (k1 k2 : list row -> list (nat * (nat * nat)))
          (seg1 seg2 : list segment).
  Hypothesis Hf : forall s e x, fresh s e -> node e x -> f x = t (rows x).
  Hypothesis S1 : forall i, lay_out i seg1 = lay_out (inputs (i 0) None) seg1.
  Hypothesis S2 : forall i, lay_out i seg2 = lay_out (inputs [] (Some (i 1))) seg2.
  Hypothesis H1 : forall l, good 0 l -> pres (of_rows (w1 l) [] (k1 l)) (lay_out (inputs (t l) None) seg1) [0].
  Hypothesis H2 : forall l, good 1 l -> pres (of_rows (w2 l) [] (k2 l)) (lay_out (inputs [] (Some (t l))) seg2) [1].

  Lemma lay_single e : fresh 0 e -> laid_out f e None seg1 (merge false [dressed e w1 k1]).
  Proof.
    intros Fr. pose proof (fun x => fresh_node 0 e x Fr) as G.
    assert (E : forall x, node e x -> lay_out (both f x None) seg1 = lay_out (inputs (t (rows x)) None) seg1).
    { intros x Hx. unfold both. rewrite S1. cbn [inputs]. rewrite (Hf 0 e x Fr Hx). reflexivity. }
    split; [|split].
    - rewrite (E e) by constructor.
      apply (dress_single_main w1 k1 (fun l => lay_out (inputs (t l) None) seg1) (good 0) H1 e G).
    - intros x Hx. destruct (dress_single w1 k1 (fun l => lay_out (inputs (t l) None) seg1) (good 0) H1 e G x Hx) as (a & Ha & Sh).
      exists a, None. split; [exact Ha|]. split; [exact I|]. rewrite (E a Ha). exact Sh.
    - intros a' [b'|] Ha Hb; [contradiction|].
      destruct (dress_single_top w1 k1 (fun l => lay_out (inputs (t l) None) seg1) (good 0) H1 e a' G (fresh_top _ _ _ Fr Ha)) as (x & Tx & Sh).
      exists x. split; [apply top_node, Tx|]. rewrite (E a' Ha). exact Sh.
  Qed.

  Lemma lay_pair e e2 : fresh 0 e -> fresh 1 e2 ->
    laid_out f e (Some e2) (seg1 ++ seg2) (merge false [dressed e w1 k1; dressed e2 w2 k2]).
  Proof.
    intros Fr Fr2. pose proof (fun x => fresh_node 0 e x Fr) as G. pose proof (fun x => fresh_node 1 e2 x Fr2) as G2.
    assert (E : forall x y, node e x -> node e2 y -> lay_out (both f x (Some y)) (seg1 ++ seg2) =
       lay_out (inputs (t (rows x)) None) seg1 ++ lay_out (inputs [] (Some (t (rows y)))) seg2).
    { intros x y Hx Hy. unfold both. unfold lay_out at 1. rewrite flat_map_app.
      fold (lay_out (inputs (f x) (option_map f (Some y))) seg1). fold (lay_out (inputs (f x) (option_map f (Some y))) seg2).
      rewrite S1, S2. cbn [inputs option_map]. rewrite (Hf 0 e x Fr Hx), (Hf 1 e2 y Fr2 Hy). reflexivity. }
    set (c1 := fun l => lay_out (inputs (t l) None) seg1) in *.
    set (c2 := fun l => lay_out (inputs [] (Some (t l))) seg2) in *.
    split; [|split].
    - rewrite (E e e2) by constructor.
      apply (dress_pair_main w1 w2 k1 k2 c1 c2 (good 0) (good 1) H1 H2 e e2 G G2).
    - intros x Hx. destruct (dress_pair w1 w2 k1 k2 c1 c2 (good 0) (good 1) H1 H2 e e2 G G2 x Hx) as (a & b & Ha & Hb & Sh).
      exists a, (Some b). split; [exact Ha|]. split; [exact Hb|]. rewrite (E a b Ha Hb). exact Sh.
    - intros a' [b'|] Ha Hb; [|contradiction].
      destruct (dress_pair_top w1 w2 k1 k2 c1 c2 (good 0) (good 1) H1 H2 e e2 a' b' G G2 (fresh_top _ _ _ Fr Ha) (fresh_top _ _ _ Fr2 Hb)) as (x & Tx & Sh).
      exists x. split; [apply top_node, Tx|]. rewrite (E a' b' Ha Hb). exact Sh.
  Qed.
End lay.

Lemma bert_laid_out is_ws sep cls a b : fresh 0 a -> opt_fresh b ->
  exists out, process is_ws (PBert sep cls) a b true = Ok out /\
    laid_out rows a b (bert_layout sep cls (is_some b)) out.
Proof.
  intros Fa Fb. destruct b as [b|]; eexists; (split; [reflexivity|]);
    cbn [mapi map combine seq length fst snd bert_process map_first is_some];
    unfold bert_process, mapi; cbn [map combine seq length fst snd map_first].
  - rewrite (bert_first_fresh sep cls a Fa), (bert_other_fresh sep b Fb).
    apply (lay_pair rows (fun l => l) _ _ _ _ [Added [cls] 0; Input 0 0; Added [sep] 0] [Input 1 1; Added [sep] 1]); try reflexivity; try assumption.
    + intros l _. apply pres_wrap.
    + intros l _. apply pres_tail.
  - rewrite (bert_first_fresh sep cls a Fa).
    apply (lay_single rows (fun l => l) _ _ [Added [cls] 0; Input 0 0; Added [sep] 0]); try reflexivity; try assumption.
    intros l _. apply pres_wrap.
Qed.

Lemma roberta_laid_out is_ws sep cls trim aps a b : fresh 0 a -> opt_fresh b ->
  exists out, process is_ws (PRoberta sep cls trim aps) a b true = Ok out /\
    laid_out (seen is_ws trim aps) a b (roberta_layout sep cls (is_some b)) out.
Proof.
  intros Fa Fb.
  assert (Hf : forall s e x, fresh s e -> node e x -> seen is_ws trim aps x = maybe_trim is_ws trim aps (rows x)).
  { intros s e x F N. apply seen_maybe. eapply fresh_node_same; eassumption. }
  assert (W : forall s p q l, pres (of_rows (wrap 0 p q (maybe_trim is_ws trim aps l)) [] [(s, (1, S (length l)))])
      ((None, added_row 0 p) :: map (fun r => (Some s, typed 0 r)) (maybe_trim is_ws trim aps l) ++ [(None, added_row 0 q)]) [s]).
  { intros s p q l. rewrite <- (maybe_trim_length is_ws trim aps l). apply pres_wrap. }
  destruct b as [b|];
    [exists (merge false (roberta_process is_ws sep cls trim aps (mapi prepare [a; b]) true))
    |exists (merge false (roberta_process is_ws sep cls trim aps (mapi prepare [a]) true))]; (split; [reflexivity|]).
  - assert (E : roberta_process is_ws sep cls trim aps (mapi prepare [a; b]) true =
      [dressed a (fun l => wrap 0 cls sep (maybe_trim is_ws trim aps l)) (fun l => [(0, (1, S (length l)))]);
       dressed b (fun l => wrap 0 sep sep (maybe_trim is_ws trim aps l)) (fun l => [(1, (1, S (length l)))])]).
    { rewrite <- roberta_first_fresh by exact Fa. rewrite <- roberta_other_fresh by exact Fb.
      destruct trim; reflexivity. }
    rewrite E.
    apply (lay_pair (seen is_ws trim aps) (maybe_trim is_ws trim aps) _ _ _ _ [Added [cls] 0; Input 0 0; Added [sep] 0] [Added [sep] 0; Input 1 0; Added [sep] 0]); try reflexivity; try assumption.
    + intros l _. apply W.
    + intros l _. apply W.
  - assert (E : roberta_process is_ws sep cls trim aps (mapi prepare [a]) true =
      [dressed a (fun l => wrap 0 cls sep (maybe_trim is_ws trim aps l)) (fun l => [(0, (1, S (length l)))])]).
    { rewrite <- roberta_first_fresh by exact Fa. destruct trim; reflexivity. }
    rewrite E.
    apply (lay_single (seen is_ws trim aps) (maybe_trim is_ws trim aps) _ _ [Added [cls] 0; Input 0 0; Added [sep] 0]); try reflexivity; try assumption.
    intros l _. apply W.
Qed.

Lemma typed_good s l : good s l -> map (fun r => (Some s, typed (N.of_nat s) r)) l = map (fun r => (Some s, r)) l.
Proof.
  intros G. apply map_ext_in. intros r Hr. unfold good in G. rewrite Forall_forall in G.
  destruct (G r Hr) as (T & _). destruct r; cbn in *. rewrite <- T. reflexivity.
Qed.

Lemma bare_pres s is_ws trim aps l : good s l ->
  pres (of_rows (maybe_trim is_ws trim aps l) [] [(s, (0, length l))])
       (map (fun r => (Some s, typed (N.of_nat s) r)) (maybe_trim is_ws trim aps l)) [s].
Proof.
  intros G. rewrite (typed_good s) by (apply good_trim, G).
  pose proof (pres_of_rows s [] (maybe_trim is_ws trim aps l) [] []) as H.
  cbn [app map length] in H. rewrite !app_nil_r, maybe_trim_length in H. exact H.
Qed.

Lemma set_sequence_id_dressed s e w : (forall l, length (w l) = length l) ->
  set_sequence_id (dressed e w (fun l => [(s, (0, length l))])) s = dressed e w (fun l => [(s, (0, length l))]).
Proof.
  intros Hw. unfold dressed, set_sequence_id. rewrite of_rows_len, Hw. unfold set_ranges, of_rows; unfold_enc.
  cbn [ranges_insert]. rewrite Nat.eqb_refl. reflexivity.
Qed.

Lemma byte_level_laid_out is_ws trim aps a b add : fresh 0 a -> opt_fresh b ->
  exists out, process is_ws (PByteLevel trim aps) a b add = Ok out /\
    laid_out (seen is_ws trim aps) a b (bare_layout (is_some b)) out.
Proof.
  intros Fa Fb.
  assert (Hf : forall s e x, fresh s e -> node e x -> seen is_ws trim aps x = maybe_trim is_ws trim aps (rows x)).
  { intros s e x F N. apply seen_maybe. eapply fresh_node_same; eassumption. }
  assert (E : forall s e, fresh s e -> set_sequence_id (if trim then trim_all is_ws aps (prepare s e) else prepare s e) s =
     dressed e (fun l => maybe_trim is_ws trim aps l) (fun l => [(s, (0, length l))])).
  { intros s e F. rewrite (prepare_dressed s e F), trim_dressed. apply set_sequence_id_dressed. apply maybe_trim_length. }
  destruct b as [b|];
    [exists (merge false (byte_level_process is_ws trim aps (mapi prepare [a; b])))
    |exists (merge false (byte_level_process is_ws trim aps (mapi prepare [a])))]; (split; [reflexivity|]).
  - assert (E2 : byte_level_process is_ws trim aps (mapi prepare [a; b]) =
      [dressed a (fun l => maybe_trim is_ws trim aps l) (fun l => [(0, (0, length l))]);
       dressed b (fun l => maybe_trim is_ws trim aps l) (fun l => [(1, (0, length l))])]).
    { rewrite <- (E 0 a Fa), <- (E 1 b Fb). destruct trim; reflexivity. }
    rewrite E2.
    apply (lay_pair (seen is_ws trim aps) (maybe_trim is_ws trim aps) _ _ _ _ [Input 0 0] [Input 1 1]); try reflexivity; try assumption.
    + intros l G. cbn [lay_out flat_map inputs]. rewrite app_nil_r. apply (bare_pres 0), G.
    + intros l G. cbn [lay_out flat_map inputs]. rewrite app_nil_r. apply (bare_pres 1), G.
  - assert (E2 : byte_level_process is_ws trim aps (mapi prepare [a]) =
      [dressed a (fun l => maybe_trim is_ws trim aps l) (fun l => [(0, (0, length l))])]).
    { rewrite <- (E 0 a Fa). destruct trim; reflexivity. }
    rewrite E2.
    apply (lay_single (seen is_ws trim aps) (maybe_trim is_ws trim aps) _ _ [Input 0 0]); try reflexivity; try assumption.
    intros l G. cbn [lay_out flat_map inputs]. rewrite app_nil_r. apply (bare_pres 0), G.
Qed.

Lemma bert_bare is_ws sep cls a b : fresh 0 a -> opt_fresh b ->
  exists out, process is_ws (PBert sep cls) a b false = Ok out /\
    laid_out rows a b (bare_layout (is_some b)) out.
Proof.
  intros Fa Fb. destruct (byte_level_laid_out is_ws false false a b true Fa Fb) as (out & E & L).
  destruct b as [b|]; unfold process in E; cbn [process_encodings bind] in E; injection E as <-;
    [exists (merge false (mapi prepare [a; b]))|exists (merge false (mapi prepare [a]))]; (split; [reflexivity|]).
  - replace (byte_level_process is_ws false false (mapi prepare [a; b])) with (mapi prepare [a; b]) in L; [exact L|].
    unfold byte_level_process, mapi. cbn [combine seq length map fst snd].
    rewrite (prepare_dressed 0 a Fa), (prepare_dressed 1 b Fb), !set_sequence_id_dressed by reflexivity. reflexivity.
  - replace (byte_level_process is_ws false false (mapi prepare [a])) with (mapi prepare [a]) in L; [exact L|].
    unfold byte_level_process, mapi. cbn [combine seq length map fst snd].
    rewrite (prepare_dressed 0 a Fa), !set_sequence_id_dressed by reflexivity. reflexivity.
Qed.

(** ** Templates *)
Lemma fresh_overs s e o : fresh s e -> In o (overflowing e) -> same_lengths o.
Proof. intros F H. eapply fresh_node_same; [exact F|eapply node_over; [exact H|constructor]]. Qed.

Lemma template_laid_out is_ws t a b add segs :
  special_ok (tm_special t) -> fresh 0 a -> opt_fresh b ->
  let tpl := if is_some b then tm_pair t else tm_single t in
  NoDup (used tpl) -> used tpl <> [] -> (forall s, In s (used tpl) -> s < if is_some b then 2 else 1) ->
  layout add (tm_special t) tpl = Some segs ->
  exists out, process is_ws (PTemplate t) a b add = Ok out /\
    shows out (lay_out (both rows a b) segs) /\
    (forall x, node out x -> exists a' b' segs', node a a' /\ opt_node b b' /\ Forall2 relaxed segs segs' /\
       shows x (lay_out (both rows a' b') segs')).
Proof.
  intros Sp Fa Fb tpl ND NE B L.
  set (ins := fun i => match i with 0 => a | _ => match b with Some b => b | None => a end end).
  set (es := match b with Some b => [prepare 0 a; prepare 1 b] | None => [prepare 0 a] end).
  destruct (template_outputs add (tm_special t) tpl es ins segs Sp ND) as (outs & E & (cks & P & C & K) & Hn).
  { intros i Hi. specialize (B i Hi). destruct b as [b|]; cbn in B; destruct i as [|[|i]]; try lia;
      eexists; (split; [reflexivity|]); apply fresh_tready; assumption. }
  { intros i x Hi. specialize (B i Hi). destruct b as [b|]; cbn in B; destruct i as [|[|i]]; try lia;
      intros Hx; eapply fresh_node; eassumption. }
  { intros i o Hi. specialize (B i Hi). destruct b as [b|]; cbn in B; destruct i as [|[|i]]; try lia;
      intros Hx; first [exact (fresh_overs 0 _ _ Fa Hx) | exact (fresh_overs 1 _ _ Fb Hx)]. }
  { exact L. }
  exists (merge false outs). split; [|split].
  - subst tpl es. destruct b as [b|]; cbn [is_some] in *; unfold process, mapi; cbn [map combine seq length fst snd process_encodings template_process];
      rewrite E; reflexivity.
  - apply (pres_shows _ _ (used tpl)); [|exact NE].
    pose proof (pres_merge_list outs cks P) as Q. rewrite K, C in Q.
    rewrite (lay_out_ext (both rows a b) (fun i => rows (ins i)) segs); [apply Q, ND|].
    intros s ty Hin. pose proof (B s (layout_inputs _ _ _ _ _ _ L Hin)) as Hs.
    destruct b as [b|]; cbn in Hs; destruct s as [|[|s]]; try lia; reflexivity.
  - intros x Hx. destruct (merge_node _ _ _ Hx) as (xs & F & Ex).
    destruct (Hn xs F) as (f & segs' & cks' & Hf & R & P' & C' & K').
    exists (f 0), (match b with Some _ => Some (f 1) | None => None end), segs'.
    split; [apply (Hf 0)|]. split; [destruct b; [apply (Hf 1)|exact I]|]. split; [exact R|].
    assert (Q : pres (flat x) (concat (map fst cks')) (concat (map snd cks'))).
    { rewrite Ex. apply pres_merge_list; [apply pres_list_flat, P'|]. rewrite K'. exact ND. }
    apply (pres_shows _ _ (used tpl)); [|exact NE].
    apply (proj1 (pres_flat x _ _)). rewrite K', C' in Q.
    rewrite (lay_out_ext (both rows (f 0) (match b with Some _ => Some (f 1) | None => None end)) (fun i => rows (f i)) segs'); [exact Q|].
    intros s ty Hin. destruct (relaxed_inputs _ _ _ _ R Hin) as (ty' & Hin').
    pose proof (B s (layout_inputs _ _ _ _ _ _ L Hin')) as Hs.
    destruct b as [b|]; cbn in Hs; destruct s as [|[|s]]; try lia; reflexivity.
Qed.

(** When the type ids written in the template are the numbers of the sequences,
    nothing is relaxed. *)
Lemma relaxed_exact segs segs' :
  Forall (fun s => match s with Input i ty => ty = N.of_nat i | _ => True end) segs ->
  Forall2 relaxed segs segs' -> segs' = segs.
Proof.
  intros F R. induction R as [|x y l l' H R IH]; [reflexivity|]. inversion F; subst.
  rewrite IH by assumption. f_equal. destruct H as [->|(s & ty & -> & ->)]; [reflexivity|]. congruence.
Qed.

(** ** Trimming *)
Lemma bytes_char_space : bytes_char 32 = Some 288%N.
Proof. vm_compute. reflexivity. Qed.

Lemma blank_iff is_ws c : blank is_ws c = true <-> is_blank is_ws c.
Proof. unfold blank, is_blank. rewrite bytes_char_space, orb_true_iff, N.eqb_eq. tauto. Qed.

Lemma count_while_leads {A} (f : A -> bool) (P : A -> Prop) (l : list A) : (forall x, f x = true <-> P x) -> leads P l (count_while f l).
Proof.
  intros H. induction l as [|x l IH]; cbn [count_while]; [constructor|]. destruct (f x) eqn:E.
  - constructor; [apply H, E|exact IH].
  - constructor. rewrite <- H. congruence.
Qed.

Lemma leads_fun {A} (P : A -> Prop) l n m : leads P l n -> leads P l m -> n = m.
Proof. intros H. revert m. induction H; intros m H2; inversion H2; subst; try reflexivity; try contradiction. f_equal. auto. Qed.

Lemma trim_loop_nth is_ws aps toks os i0 i :
  nth_error (trim_loop is_ws aps i0 toks os) i =
  match nth_error os i, nth_error toks i with
  | Some o, Some t => Some (trim_one is_ws aps (i0 + i) t o)
  | r, _ => r
  end.
Proof.
  revert os i0 i; induction toks as [|t toks IH]; intros os i0 i.
  - cbn. destruct (nth_error os i) eqn:E; [|reflexivity]. destruct i; reflexivity.
  - destruct os as [|o os]; [destruct i; reflexivity|]. destruct i as [|i]; cbn [trim_loop nth_error].
    + rewrite Nat.add_0_r. reflexivity.
    + rewrite IH, Nat.add_succ_comm. reflexivity.
Qed.

Lemma trim_row is_ws aps e i r : same_lengths e -> nth_error (rows e) i = Some r ->
  nth_error (rows (process_offsets is_ws aps e)) i =
  Some (Row (r_id r) (r_type r) (r_token r) (r_word r) (trim_one is_ws aps i (r_token r) (r_off r)) (r_special r) (r_attention r)).
Proof.
  intros HS. rewrite (of_rows_eq e HS). rewrite process_offsets_of_rows, !rows_of_rows. generalize (rows e). clear e HS. intros l.
  unfold trow, process_offsets, rows, of_rows; unfold_enc.
  change (trim_one is_ws aps i) with (trim_one is_ws aps (0 + i)). generalize 0. revert i.
  induction l as [|[a b c d o f g] l IH]; intros [|i] k; cbn [map trim_loop combine nth_error r_id r_type r_token r_word r_off r_special r_attention];
    try discriminate.
  - intros E. injection E as <-. rewrite Nat.add_0_r. reflexivity.
  - rewrite <- Nat.add_succ_comm. apply IH.
Qed.
