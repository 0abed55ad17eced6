(** C62: what a whole encoding contains. *)
From Verif Require Import Base ListFacts StrBytes EncodingModel EncodingSpec EncodingProofs EncodingProofs2 TruncPadModel TruncPadProofs
  NormModel NormSpec NormProofs AddedModel AddedSpec AddedProofs AddedProofs3 AddedProofs4
  ProcessorsModel ProcessorsSpec ProcessorsProofs ProcessorsProofs4 ProcessorsProps
  TokenizerModel TokenizerSpec TokenizerProofs TokenizerProofs2 TokenizerProps EncodingProps AddedProps PreTokModel PreTokSpec PreTokProofs PreTokProofs2 PreTokProps
  PatternModel EndToEndSpec EndToEndProofs.

(** Every token of a text is a range of that text, with the type id asked for. *)
Theorem C62_raw_tokens : forall t s ty e,
  sound t -> encode_single t (Raw s) ty OByte = Ok e -> parallel e /\ overflowing e = [] /\ Forall (token_of s ty) (rows e).
Proof.
  intros t s ty e SO H. destruct (encode_single_tokenised _ _ _ _ _ H) as [P O]. split; [exact P|]. split; [exact O|].
  exact (part_tokens t ty None s e SO H).
Qed.

(** Words: the tokens of each word in turn, as for the word alone but numbered by
    the word. The list is encoded exactly when every word is. *)
Theorem C62_words : forall t ws ty ot e,
  encode_single t (PreTokenized ws) ty ot = Ok e ->
  exists xs, Forall2 (fun w x => encode_single t (Raw w) ty ot = Ok x) ws xs /\
    rows e = concat (map (fun ix => map (in_word ot (N.of_nat (fst ix))) (rows (snd ix))) (combine (seq 0 (length xs)) xs)).
Proof.
  intros t ws ty ot e H. cbn [encode_single] in H. apply bind_ok in H. destruct H as (es & H1 & H2). injection H2 as <-. apply map_res_ok in H1.
  assert (P : Forall parallel es).
  { clear -H1. induction H1 as [|x y l l' H _ IH]; constructor; [|exact IH]. exact (proj1 (encode_part_tokenised _ _ _ _ _ _ H)). }
  rewrite (C06_merge_list es P). clear P. revert es H1. generalize 0 as k. induction ws as [|w ws IH]; intros k es H1; inversion H1 as [|x y l l' Hy H1']; subst.
  - exists []. split; [constructor|reflexivity].
  - destruct (IH (S k) l' H1') as (xs & F & E). cbn [fst snd] in Hy. apply encode_part_word in Hy. destruct Hy as (x & Hx & _ & R).
    exists (x :: xs). split; [constructor; [exact Hx|exact F]|]. cbn [length seq combine map concat fst snd]. rewrite R, E. reflexivity.
Qed.

Theorem C62_words_total : forall t ws ty ot xs,
  Forall2 (fun w x => encode_single t (Raw w) ty ot = Ok x) ws xs -> exists e, encode_single t (PreTokenized ws) ty ot = Ok e.
Proof.
  intros t ws ty ot xs F. cbn [encode_single].
  assert (G : forall k, exists es, map_res (fun iw => encode_part t ty ot (Some (N.of_nat (fst iw))) (snd iw)) (combine (seq k (length ws)) ws) = Ok es).
  { induction F as [|w x ws xs H _ IH]; intros k; [exists []; reflexivity|]. cbn [length seq combine map_res fst snd].
    destruct (encode_part_word_some t ty ot (N.of_nat k) w x H) as (y & ->). destruct (IH (S k)) as (es & ->). cbn. eauto. }
  destruct (G 0) as (es & ->). cbn. eauto.
Qed.

(** Without post-processor, truncation or padding: a single input is returned as
    it is, a pair is the first sequence followed by the second. *)
Theorem C62_single_plain : forall t ot a add out,
  tz_post t = None -> tz_truncation t = None -> tz_padding t = None ->
  encode t ot (Single a) add = Ok out -> encode_single t a 0 ot = Ok out.
Proof.
  intros t ot a add out H1 H2 H3 H. cbn [encode] in H. destruct (encode_single t a 0 ot) as [e| |]; cbn [other bind] in H; try discriminate.
  unfold post_process, truncate_step, process_step, pad_step in H. rewrite H1, H2, H3 in H. cbn in H. congruence.
Qed.

Theorem C62_pair_plain : forall t ot a b add out,
  tz_post t = None -> tz_truncation t = None -> tz_padding t = None ->
  encode t ot (Dual a b) add = Ok out ->
  exists ea eb, encode_single t a 0 ot = Ok ea /\ encode_single t b 1 ot = Ok eb /\
    rows out = rows ea ++ rows eb /\
    forall i, token_to_sequence out i =
      if i <? length (rows ea) then Some 0 else if i <? length (rows ea) + length (rows eb) then Some 1 else None.
Proof.
  intros t ot a b add out H1 H2 H3 H. rewrite encode_sequences in H. destruct (sequences t ot (Dual a b)) as [[e p]| |] eqn:Es; cbn [other bind fst snd] in H; try discriminate.
  pose proof Es as Es'. cbn [sequences] in Es. apply bind_ok in Es. destruct Es as (ea & Ha & Es). apply bind_ok in Es. destruct Es as (eb & Hb & Es). injection Es as <- <-.
  exists ea, eb. split; [exact Ha|]. split; [exact Hb|].
  unfold post_process, truncate_step, process_step, pad_step in H. rewrite H1, H2, H3 in H. cbn [bind fst snd default_process length seq combine fold_left] in H.
  injection H as H. change (merge_with false (merge_with false empty_enc (set_sequence_id ea 0)) (set_sequence_id eb 1) = out) in H. rewrite <- H. clear H.
  pose proof (encode_single_tokenised _ _ _ _ _ Ha) as [Pa Oa]. pose proof (encode_single_tokenised _ _ _ _ _ Hb) as [Pb Ob].
  assert (Ra : sequence_ranges ea = [] /\ sequence_ranges eb = []).
  { clear -Ha Hb. assert (G : forall sq ty e, encode_single t sq ty ot = Ok e -> sequence_ranges e = []).
    { assert (G : forall w x ty y, encode_part t ty ot w x = Ok y -> sequence_ranges y = []).
      { intros w x ty y Hy. apply encode_part_steps in Hy. destruct Hy as (p1 & p2 & p3 & _ & _ & _ & Hy).
        unfold into_encoding in Hy. destruct (is_nil _); [injection Hy as <-; reflexivity|]. destruct (negb _); [discriminate|].
        destruct ot; try (apply bind_ok in Hy; destruct Hy as (r & _ & Hy)); injection Hy as <-; reflexivity. }
      intros sq ty e H. destruct sq as [x|ws]; cbn [encode_single] in H; [eapply G; exact H|].
      apply bind_ok in H. destruct H as (es & H1 & H2). injection H2 as <-. apply map_res_ok in H1. unfold merge.
      assert (K : forall acc, sequence_ranges acc = [] -> sequence_ranges (fold_left (merge_with false) es acc) = []); [|apply K; reflexivity].
      induction H1 as [|x y l l' H _ IH]; intros acc Hacc; cbn [fold_left]; [exact Hacc|]. apply IH. rewrite merge_with_unfold. cbn [merge_main sequence_ranges].
      rewrite Hacc, (G _ _ _ _ H). reflexivity. }
    split; eapply G; eassumption. }
  destruct Ra as [Ra Rb].
  assert (La : same_lengths ea) by (apply same_lengths_parallel; exact Pa). assert (Lb : same_lengths eb) by (apply same_lengths_parallel; exact Pb).
  assert (M0 : same_lengths (merge_with false empty_enc (set_sequence_id ea 0))).
  { apply same_lengths_parallel, merge_with_parallel; [constructor; [repeat split|constructor]|apply set_sequence_id_parallel, Pa]. }
  assert (RR : rows (merge_with false (merge_with false empty_enc (set_sequence_id ea 0)) (set_sequence_id eb 1)) = rows ea ++ rows eb).
  { rewrite rows_merge_with by exact M0. rewrite rows_merge_with by repeat split. reflexivity. }
  split; [exact RR|]. rewrite !rows_length by assumption.
  assert (SR : sequence_ranges (merge_with false (merge_with false empty_enc (set_sequence_id ea 0)) (set_sequence_id eb 1))
               = [(0, (0, enc_len ea)); (1, (enc_len ea, enc_len ea + enc_len eb))]).
  { rewrite !merge_with_unfold. cbn [merge_main sequence_ranges set_sequence_id set_ranges]. rewrite Ra, Rb. cbn [sequence_ranges merge_ranges ranges_insert fold_left fst snd empty_enc].
    cbn. rewrite ?Nat.add_0_r. unfold enc_len. cbn [ids]. reflexivity. }
  assert (EL : enc_len (merge_with false (merge_with false empty_enc (set_sequence_id ea 0)) (set_sequence_id eb 1)) = enc_len ea + enc_len eb).
  { rewrite !merge_with_unfold, !merge_main_len. reflexivity. }
  intros i. unfold token_to_sequence. rewrite SR, EL. cbn [find_range]. unfold EncodingModel.in_range. cbn [fst snd].
  generalize (enc_len ea) (enc_len eb). intros x y.
  destruct (Nat.ltb_spec (x + y) i); destruct (Nat.ltb_spec i x); destruct (Nat.ltb_spec i (x + y)); destruct (Nat.leb_spec x i); try lia; try reflexivity;
  destruct (Nat.leb_spec 0 i); try lia; cbn [andb]; try reflexivity.
Qed.

(** Padding is the last step: it pads what the tokenizer without padding returns. *)
Theorem C62_padding : forall t p ot input add out,
  tz_padding t = Some p ->
  (encode t ot input add = Ok out <->
   exists e, encode (with_padding t None) ot input add = Ok e /\ pad_encodings [e] p = [out]).
Proof.
  intros t p ot input add out Hp. rewrite encode_pad. split.
  - intros H. apply bind_ok in H. destruct H as (e & He & H). exists e. split; [exact He|]. unfold pad_step in H. rewrite Hp in H.
    destruct (pad_encodings [e] p) as [|x [|y l]]; try discriminate. congruence.
  - intros (e & He & E). rewrite He. cbn [bind]. unfold pad_step. rewrite Hp, E. reflexivity.
Qed.

(** What the post-processor is given: the encodings of the sequences, truncated.
    With the BERT post-processor the result is laid out as BERT wants, every token
    of the (truncated) sequences at its place. *)
Theorem C62_bert : forall t sep cls ot input add out,
  tz_post t = Some (PBert sep cls) -> tz_padding t = None -> ot <> ONone ->
  encode t ot input add = Ok out ->
  exists e pair e' pair', sequences t ot input = Ok (e, pair) /\ truncate_step t e pair add = Ok (e', pair') /\
    laid_out rows e' pair' (if add then bert_layout sep cls (is_dual input) else bare_layout (is_dual input)) out.
Proof.
  intros t sep cls ot input add out Hp Hn Hot H. rewrite encode_sequences in H.
  destruct (sequences t ot input) as [[e pair]| |] eqn:Es; cbn [other bind fst snd] in H; try discriminate.
  unfold post_process in H. apply bind_ok in H. destruct H as ([e' pair'] & Ht & H). cbn [fst snd] in H.
  exists e, pair, e', pair'. split; [reflexivity|]. split; [exact Ht|].
  destruct (sequences_fresh _ _ _ _ _ _ _ _ Hot Es Ht) as (F1 & F2 & D). rewrite <- D.
  unfold process_step, pad_step in H. rewrite Hp, Hn in H. apply bind_ok in H. destruct H as (x & Hx & H). injection H as <-.
  destruct add.
  - destruct (C46_bert (tz_blank t) sep cls e' pair' F1 F2) as (x' & E & L). rewrite E in Hx. cbn [other] in Hx. injection Hx as <-. exact L.
  - destruct (C46_bert_bare (tz_blank t) sep cls e' pair' F1 F2) as (x' & E & L). rewrite E in Hx. cbn [other] in Hx. injection Hx as <-. exact L.
Qed.

Theorem C62_roberta : forall t sep cls trim aps ot input out,
  tz_post t = Some (PRoberta sep cls trim aps) -> tz_padding t = None -> ot <> ONone ->
  encode t ot input true = Ok out ->
  exists e pair e' pair', sequences t ot input = Ok (e, pair) /\ truncate_step t e pair true = Ok (e', pair') /\
    laid_out (seen (tz_blank t) trim aps) e' pair' (roberta_layout sep cls (is_dual input)) out.
Proof.
  intros t sep cls trim aps ot input out Hp Hn Hot H. rewrite encode_sequences in H.
  destruct (sequences t ot input) as [[e pair]| |] eqn:Es; cbn [other bind fst snd] in H; try discriminate.
  unfold post_process in H. apply bind_ok in H. destruct H as ([e' pair'] & Ht & H). cbn [fst snd] in H.
  exists e, pair, e', pair'. split; [reflexivity|]. split; [exact Ht|].
  destruct (sequences_fresh _ _ _ _ _ _ _ _ Hot Es Ht) as (F1 & F2 & D). rewrite <- D.
  unfold process_step, pad_step in H. rewrite Hp, Hn in H. apply bind_ok in H. destruct H as (x & Hx & H). injection H as <-.
  destruct (C46_roberta (tz_blank t) sep cls trim aps e' pair' F1 F2) as (x' & E & L). rewrite E in Hx. cbn [other] in Hx. injection Hx as <-. exact L.
Qed.

Theorem C62_template : forall t bld tm ot input (add : bool) out segs,
  tz_post t = Some (PTemplate tm) -> ProcessorsModel.build bld = Ok tm -> special_ok (tm_special tm) -> tz_padding t = None -> ot <> ONone ->
  uses_once (if is_dual input then tm_pair tm else tm_single tm) (is_dual input) ->
  (if add then template_layout (tm_special tm) (if is_dual input then tm_pair tm else tm_single tm) = Some segs
   else segs = template_layout_bare (if is_dual input then tm_pair tm else tm_single tm)) ->
  encode t ot input add = Ok out ->
  exists e pair e' pair', sequences t ot input = Ok (e, pair) /\ truncate_step t e pair add = Ok (e', pair') /\
    shows out (lay_out (both rows e' pair') segs).
Proof.
  intros t bld tm ot input add out segs Hp Hb Hs Hn Hot Hu Hl H. rewrite encode_sequences in H.
  destruct (sequences t ot input) as [[e pair]| |] eqn:Es; cbn [other bind fst snd] in H; try discriminate.
  unfold post_process in H. apply bind_ok in H. destruct H as ([e' pair'] & Ht & H). cbn [fst snd] in H.
  exists e, pair, e', pair'. split; [reflexivity|]. split; [exact Ht|].
  destruct (sequences_fresh _ _ _ _ _ _ _ _ Hot Es Ht) as (F1 & F2 & D). rewrite <- D in *.
  unfold process_step, pad_step in H. rewrite Hp, Hn in H. apply bind_ok in H. destruct H as (x & Hx & H). injection H as <-.
  destruct (C46_template (tz_blank t) bld tm e' pair' add segs Hb Hs F1 F2 Hu Hl) as (x' & E & L & _). rewrite E in Hx. cbn [other] in Hx. injection Hx as <-. exact L.
Qed.

(** Finding: [encode_fast] forgets the type ids: without a post-processor the
    tokens of the second sequence have type 0. *)
Theorem C62_fast_types_refuted : exists t a b slow fast,
  encode t OByte (Dual a b) false = Ok slow /\ encode t ONone (Dual a b) false = Ok fast /\
  ids slow = ids fast /\ type_ids slow = [0; 0; 0; 1; 1]%N /\ type_ids fast = [0; 0; 0; 0; 0]%N.
Proof. exists (toy None None None), (Raw abc), (Raw de). do 2 eexists. do 2 (split; [vm_compute; reflexivity|]). vm_compute. auto. Qed.

(** Finding: without a post-processor only the encodings themselves are marked with
    their sequence, not their overflowing ones: in the pieces cut off from the
    first sequence, its tokens belong to no sequence. *)
Theorem C62_overflow_owner_refuted : exists t a b out x,
  tz_post t = None /\ encode t OByte (Dual a b) false = Ok out /\ In x (overflowing out) /\
  nth_error (ids x) 0 = nth_error abc 1 /\ token_to_sequence x 0 = None.
Proof.
  exists (toy None (Some (mkTruncParams DRight 3 OnlyFirst 0)) None), (Raw abc), (Raw de). do 2 eexists. split; [reflexivity|].
  split; [vm_compute; reflexivity|]. split; [cbn; left; reflexivity|]. vm_compute. auto.
Qed.

(** The toy tokenizers are sound. *)
Lemma letters_sound_range : forall s ts, Forall (fun c => (c < 128)%N) s -> letters s = Ok ts ->
  Forall (fun t => fst (t_offsets t) < snd (t_offsets t) <= blen s) ts.
Proof.
  intros s ts F H. unfold letters in H. injection H as <-. rewrite Forall_map.
  assert (L : blen s = length s).
  { clear -F. induction F as [|c s H _ IH]; [reflexivity|]. cbn [blen length]. rewrite IH. unfold len_utf8.
    assert (E : (c <? 128)%N = true) by (apply N.ltb_lt; exact H). rewrite E. reflexivity. }
  rewrite L. rewrite Forall_forall. intros [i c] H. apply in_combine_l in H. apply in_seq in H. cbn [fst snd t_offsets]. lia.
Qed.
(** One token per character, whatever its length. *)
Fixpoint chars_from (i : nat) (s : str) : list token :=
  match s with
  | [] => []
  | c :: s' => mkTok c [c] (i, i + len_utf8 c) :: chars_from (i + len_utf8 c) s'
  end.
Lemma chars_sound : sound_model (fun s => Ok (chars_from 0 s)).
Proof.
  intros s ts H. injection H as <-.
  assert (G : forall s i, Forall (fun t => fst (t_offsets t) < snd (t_offsets t) <= i + blen s) (chars_from i s)).
  { clear. induction s as [|c s IH]; intros i; cbn [chars_from blen]; constructor.
    - cbn [t_offsets fst snd]. pose proof (len_utf8_pos c). lia.
    - eapply Forall_impl; [|apply IH]. cbn beta. intros t. lia. }
  exact (G s 0).
Qed.

(** Pre-tokenizers made of passes that cut or rewrite the pieces are sound, so are
    their sequences. *)
Theorem C62_cutting_sound : forall P (f : nat -> nstring -> res unit (list split)),
  only_cuts P f -> (forall i ns new sp, f i ns = Ok new -> In sp new -> sp_tokens sp = None) ->
  sound_pre_tokenizer (pt_split f).
Proof.
  intros P f C N s pt pt' I H. split.
  - eapply in_split; [exact I| |exact H]. intros i ns new sp A E Hin Hne. exact (cut_stays_inside P f i ns new sp C A E Hin Hne).
  - intros sp Hin. unfold pt_split in H. apply bind_ok in H. destruct H as (l & H & E). injection E as <-. cbn [pt_splits] in Hin.
    destruct (split_loop_in _ _ _ _ _ H Hin) as [G|(j & ns & new & G1 & G2 & _)]; [right; exact G|left; eapply N; eauto].
Qed.

Theorem C62_rewriting_sound : forall f : nstring -> res unit nstring,
  (forall ns ns', aligned ns -> f ns = Ok ns' -> aligned ns' /\ same_source ns ns') ->
  sound_pre_tokenizer (pt_normalize f).
Proof.
  intros f F s pt pt' I H. split; [eapply in_normalize; eauto|].
  intros sp Hin. unfold pt_normalize in H. apply bind_ok in H. destruct H as (l & H & E). injection E as <-. cbn [pt_splits] in Hin.
  apply map_res_ok in H. induction H as [|x y l0 l1 H _ IH]; [destruct Hin|]. destruct Hin as [<-|Hin].
  - unfold normalize_one in H. destruct (sp_tokens x) eqn:Ex; [injection H as <-; right; left; reflexivity|].
    apply bind_ok in H. destruct H as (n & _ & H). injection H as <-. left. reflexivity.
  - destruct (IH Hin) as [G|G]; [left; exact G|right; right; exact G].
Qed.

Theorem C62_sequence_sound : forall f g, sound_pre_tokenizer f -> sound_pre_tokenizer g ->
  sound_pre_tokenizer (fun pt => let! x := f pt in g x).
Proof.
  intros f g F G s pt pt' I H. apply bind_ok in H. destruct H as (x & H1 & H2).
  destruct (F s pt x I H1) as [I1 K1]. destruct (G s x pt' I1 H2) as [I2 K2]. split; [exact I2|].
  intros sp Hin. destruct (K2 sp Hin) as [N|N]; [left; exact N|auto].
Qed.

(** A tokenizer with the added tokens of [sample_av], splitting on spaces. *)
Definition on_spaces : pretok -> res unit pretok :=
  pt_split (split_on (pred_find_matches (fun c => N.eqb c 32)) Removed).
Definition demo : tokenizer :=
  mkTokenizer (fun _ => false) (fun _ => false) (fun _ => false) (fun n => n) (Some on_spaces)
              (fun s => Ok (chars_from 0 s)) None sample_av None None.

Lemma demo_sound : sound demo.
Proof.
  split; [|split; [|split; [|exact chars_sound]]].
  - exists all_ok, sample_model, no_norm, sample_tokens, sample_tokens. split; [apply sample_ok|]. split; [apply sample_ok|].
    split; [apply sample_history|]. intros pats _. right. intros. reflexivity.
  - intros ns A. split; [exact A|]. split; reflexivity.
  - cbn [tz_pre_tokenizer demo]. intros f H. injection H as <-. unfold on_spaces. eapply C62_cutting_sound; [apply C21_predicate_split|].
    intros i ns new sp H Hin. unfold split_on in H. apply bind_ok in H. destruct H as (l & _ & H). injection H as <-.
    apply in_map_iff in Hin. destruct Hin as (n & <- & _). reflexivity.
Qed.

(** "é <s>é": the added token "<s>" and two characters of two bytes. *)
Example C62_example :
  sound demo /\ exists e, encode_single demo (Raw [233; 32; 60; 115; 62; 233]%N) 0 OByte = Ok e /\
    ids e = [233; 2; 233]%N /\ offsets e = [(0, 2); (3, 6); (6, 8)] /\ words e = [Some 0; Some 1; Some 2]%N.
Proof. split; [exact demo_sound|]. eexists. split; [vm_compute; reflexivity|]. vm_compute. auto. Qed.

Example C62_words_example :
  exists e, encode_single demo (PreTokenized [[97; 98]; [99]]%N) 3 OByte = Ok e /\
    ids e = [97; 1; 99]%N /\ words e = [Some 0; Some 0; Some 1]%N /\ offsets e = [(0, 1); (1, 2); (0, 1)] /\ type_ids e = [3; 3; 3]%N.
Proof. eexists. split; [vm_compute; reflexivity|]. vm_compute. auto. Qed.

Example C62_bert_example :
  exists out, encode (toy (Some bert) None None) OByte (Dual (Raw abc) (Raw de)) true = Ok out /\
    ids out = [1; 97; 98; 99; 2; 100; 101; 2]%N /\ type_ids out = [0; 0; 0; 0; 0; 1; 1; 1]%N.
Proof. eexists. split; [vm_compute; reflexivity|]. vm_compute. auto. Qed.
