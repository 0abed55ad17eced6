(** C10, C11, C24 (whole inputs), C55: encoding of texts, pairs and batches. *)
From Verif Require Import Base ListFacts StrBytes EncodingModel EncodingSpec EncodingProofs EncodingProofs2 TruncPadModel TruncPadProofs
  NormModel PreTokModel PreTokSpec PreTokProofs PreTokProofs2 AddedModel ByteLevelModel ProcessorsModel ProcessorsSpec ProcessorsProofs ProcessorsProofs4
  TokenizerModel TokenizerSpec TokenizerProofs TokenizerProofs2 TokenizerProofs3 EncodingProps PreTokProps.

(** A tokenizer that makes one token of each (ASCII) letter. *)
Definition letters (s : str) : res unit (list token) :=
  Ok (map (fun ic => mkTok (snd ic) [snd ic] (fst ic, S (fst ic))) (combine (seq 0 (length s)) s)).
Definition toy (post : option processor) (tr : option trunc_params) (pd : option pad_params) : tokenizer :=
  mkTokenizer (fun _ => false) (fun _ => false) (fun _ => false) (fun n => n) None letters post av_new tr pd.
(** The same after a pre-tokenizer that makes a piece of each letter. *)
Definition spell : pretok -> res unit pretok :=
  pt_split (split_on (fun s => map (fun i => ((i, S i), false)) (seq 0 (length s))) Isolated).
Definition speller (tr : option trunc_params) : tokenizer :=
  mkTokenizer (fun _ => false) (fun _ => false) (fun _ => false) (fun n => n) (Some spell) letters None av_new tr None.
Definition bert : processor := PBert ([83%N], 2%N) ([67%N], 1%N).
Definition abc : str := [97; 98; 99]%N.
Definition de : str := [100; 101]%N.

(** ** C55 *)

(** What a batch returns, in any order of execution: the encodings of the inputs,
    in the order of the inputs, padded together. *)
Theorem C55_ok : forall t ot inputs add schedule out,
  valid_schedule (fun i => encode t ot i add) inputs schedule ->
  (encode_batch t ot inputs add schedule = Ok out <->
   exists es, Forall2 (fun i e => encode (with_padding t None) ot i add = Ok e) inputs es /\
              out = padded_batch (tz_padding t) es).
Proof.
  intros t ot inputs add schedule out V. unfold encode_batch.
  assert (P1 : forall es, Forall2 (fun i e => encode (with_padding t None) ot i add = Ok e) inputs es ->
     exists es', Forall2 (fun i e => encode t ot i add = Ok e) inputs es' /\ padded_batch (tz_padding t) es' = padded_batch (tz_padding t) es).
  { intros es F. unfold padded_batch. destruct (tz_padding t) as [p|] eqn:Ep.
    - exists (map (fun e => pad (pad_target [enc_len e] p) (pp_id p) (pp_type_id p) (pp_token p) (pp_direction p) e) es).
      split; [|apply pad_batch_again]. clear V. induction F as [|i e l es H _ IH]; cbn [map]; constructor; [|exact IH].
      rewrite encode_pad, H. cbn [bind]. unfold pad_step. rewrite Ep. reflexivity.
    - exists es. split; [|reflexivity]. clear V. induction F as [|i e l es H _ IH]; constructor; [|exact IH].
      rewrite encode_pad, H. cbn [bind]. unfold pad_step. rewrite Ep. reflexivity. }
  assert (P2 : forall es', Forall2 (fun i e => encode t ot i add = Ok e) inputs es' ->
     exists es, Forall2 (fun i e => encode (with_padding t None) ot i add = Ok e) inputs es).
  { clear. intros es' F. induction F as [|i e l es H _ IH]; [exists []; constructor|]. destruct IH as (es0 & F0).
    rewrite encode_pad in H. apply bind_ok in H. destruct H as (x & H & _). exists (x :: es0). constructor; assumption. }
  assert (U : forall e1 e2, Forall2 (fun i e => encode t ot i add = Ok e) inputs e1 -> Forall2 (fun i e => encode t ot i add = Ok e) inputs e2 -> e1 = e2).
  { clear. intros e1 e2 F. revert e2. induction F as [|i e l es H _ IH]; intros e2 F2; inversion F2; subst; [reflexivity|]. f_equal; [congruence|auto]. }
  split.
  - intros H. apply bind_ok in H. destruct H as (es' & H1 & H2). injection H2 as <-. apply par_collect_ok in H1; [|exact V].
    destruct (P2 _ H1) as (es & F). exists es. split; [exact F|]. destruct (P1 _ F) as (es2 & F2 & E2). rewrite (U _ _ H1 F2). exact E2.
  - intros (es & F & ->). destruct (P1 _ F) as (es' & F' & E'). apply par_collect_ok with (schedule := schedule) in F'; [|exact V].
    rewrite F'. cbn [bind]. f_equal. exact E'.
Qed.

(** The order of execution does not matter for a batch that succeeds. *)
Theorem C55_schedules : forall t ot inputs add s1 s2 out,
  valid_schedule (fun i => encode t ot i add) inputs s1 -> valid_schedule (fun i => encode t ot i add) inputs s2 ->
  encode_batch t ot inputs add s1 = Ok out -> encode_batch t ot inputs add s2 = Ok out.
Proof. intros t ot inputs add s1 s2 out V1 V2 H. apply C55_ok; [exact V2|]. apply (C55_ok _ _ _ _ _ _ V1). exact H. Qed.

(** A batch that fails fails as one of its inputs does. *)
Theorem C55_fails : forall t ot inputs add schedule,
  valid_schedule (fun i => encode t ot i add) inputs schedule ->
  (forall x, encode_batch t ot inputs add schedule = Err x -> exists i, In i inputs /\ encode t ot i add = Err x) /\
  (encode_batch t ot inputs add schedule = Panic -> exists i, In i inputs /\ encode t ot i add = Panic).
Proof.
  intros t ot inputs add schedule V. unfold encode_batch. split.
  - intros x H. apply bind_err in H. destruct H as [H|(es & _ & H)]; [|discriminate].
    exact (par_collect_err _ _ _ _ V H).
  - intros H. destruct (par_collect _ _ _) eqn:Q; cbn [bind] in H; [discriminate|discriminate|]. exact (par_collect_panic _ _ _ V Q).
Qed.

(** With [BatchLongest] all encodings of the batch have the same length. *)
Theorem C55_same_length : forall t ot inputs add schedule out p,
  valid_schedule (fun i => encode t ot i add) inputs schedule ->
  tz_padding t = Some p -> pp_strategy p = BatchLongest ->
  encode_batch t ot inputs add schedule = Ok out ->
  length out = length inputs /\ forall e1 e2, In e1 out -> In e2 out -> enc_len e1 = enc_len e2.
Proof.
  intros t ot inputs add schedule out p V Ep Es H. apply (C55_ok _ _ _ _ _ _ V) in H. destruct H as (es & F & ->).
  unfold padded_batch. rewrite Ep, pad_encodings_map. split; [rewrite map_length; clear -F; induction F; cbn; congruence|].
  assert (G : forall e, In e (map (pad (pad_target (map enc_len es) p) (pp_id p) (pp_type_id p) (pp_token p) (pp_direction p)) es) ->
              enc_len e = pad_target (map enc_len es) p).
  { intros e He. apply in_map_iff in He. destruct He as (x & <- & Hx). rewrite pad_ids_len.
    pose proof (pad_target_spec p (map enc_len es)) as (A & _). cbn zeta in A. rewrite Es in A.
    pose proof (max_list_ge (map enc_len es) (enc_len x) (in_map _ _ _ Hx)). lia. }
  intros e1 e2 H1 H2. rewrite (G e1 H1), (G e2 H2). reflexivity.
Qed.

Definition toy_batch : list encode_input := [Single (Raw abc); Dual (Raw abc) (Raw de); Single (Raw de)].
Definition toy_pad : pad_params := mkPadParams BatchLongest DLeft (Some 4) 9%N 0%N [80%N].
Example C55_example :
  exists out, encode_batch (toy (Some bert) None (Some toy_pad)) OByte toy_batch true [2; 0; 1] = Ok out /\
    map (fun e => ids e) out = [[9; 9; 9; 1; 97; 98; 99; 2]; [1; 97; 98; 99; 2; 100; 101; 2]; [9; 9; 9; 9; 1; 100; 101; 2]]%N.
Proof. eexists. split; [vm_compute; reflexivity|]. vm_compute. reflexivity. Qed.
Example C55_example_schedule :
  valid_schedule (fun i => encode (toy (Some bert) None (Some toy_pad)) OByte i true) toy_batch [2; 0; 1].
Proof.
  split; [repeat constructor; cbn; intuition discriminate|]. split; [cbn; intuition lia|]. left. cbn. intros i Hi.
  destruct i as [|[|[|i]]]; [auto|auto|auto|lia].
Qed.

(** ** C11 *)

(** A successful encoding has at most [max_length] tokens, special ones included. *)
Theorem C11_length : forall t ot input add p out,
  post_ok t -> tz_truncation t = Some p -> tz_padding t = None ->
  encode t ot input add = Ok out -> enc_len out <= tp_max_length p.
Proof.
  intros t ot input add p out K Tt Tp H. rewrite encode_sequences in H. apply bind_ok in H. destruct H as ([e pair] & H1 & H).
  apply bind_other_ok in H1. cbn [fst snd] in H. destruct (sequences_tokenised _ _ _ _ _ H1) as (Te & Tpp & _).
  unfold post_process in H. apply bind_ok in H. destruct H as ([e' pair'] & Ht & H). cbn [fst snd] in H.
  destruct (truncate_step_ok t p e pair add e' pair' Tt Te Tpp Ht) as (Hn & Is & P1 & P2 & L & _).
  destruct (process_step_len t e' pair' add K P1 P2) as (x & Ex & _ & Lx & _). rewrite Ex in H. cbn [bind] in H.
  unfold pad_step in H. rewrite Tp in H. injection H as <-. cbn zeta in Lx. rewrite Lx, Is. unfold room in L. lia.
Qed.

(** So has every overflowing encoding, if there is room for one token of each
    sequence that is cut. *)
Theorem C11_overflowing : forall t ot input add p out x,
  post_ok t -> tz_truncation t = Some p -> tz_padding t = None ->
  0 < room t p (is_dual input) add ->
  (tp_strategy p = LongestFirst -> is_dual input = true -> 2 <= room t p true add) ->
  encode t ot input add = Ok out -> node out x -> enc_len x <= tp_max_length p.
Proof.
  intros t ot input add p out x K Tt Tp M1 M2 H Hx. rewrite encode_sequences in H. apply bind_ok in H. destruct H as ([e pair] & H1 & H).
  apply bind_other_ok in H1. cbn [fst snd] in H. destruct (sequences_tokenised _ _ _ _ _ H1) as (Te & Tpp & Id).
  unfold post_process in H. apply bind_ok in H. destruct H as ([e' pair'] & Ht & H). cbn [fst snd] in H.
  destruct (truncate_step_ok t p e pair add e' pair' Tt Te Tpp Ht) as (Hn & Is & P1 & P2 & _ & L).
  destruct (process_step_len t e' pair' add K P1 P2) as (y & Ey & _ & _ & Lx). rewrite Ey in H. cbn [bind] in H.
  unfold pad_step in H. rewrite Tp in H. injection H as <-. destruct (Lx x Hx) as (a' & b' & Na & Nb & Ln). cbn zeta in Ln.
  rewrite <- Id in *. specialize (L M1). rewrite Ln, Is. unfold room in *.
  assert (G : enc_len a' + opt_len b' <= tp_max_length p - (if add then n_added t (is_some pair) else 0)).
  { apply L; [|exact Na|exact Nb]. intros Q NP. assert (Sp : is_some pair = true) by (destruct pair; [reflexivity|congruence]).
    rewrite Sp in *. exact (M2 Q eq_refl). }
  lia.
Qed.

Definition trunc4 : trunc_params := mkTruncParams DRight 4 LongestFirst 0.
Example C11_example :
  exists out x, encode (toy (Some bert) (Some trunc4) None) OByte (Single (Raw abc)) true = Ok out /\ node out x /\ x <> out /\
    ids out = [1; 97; 98; 2]%N /\ ids x = [1; 99; 2]%N /\ room (toy (Some bert) (Some trunc4) None) trunc4 false true = 2.
Proof.
  do 2 eexists. split; [vm_compute; reflexivity|]. split; [eapply node_over; [left; reflexivity|constructor]|].
  split; [discriminate|]. split; [reflexivity|]. split; reflexivity.
Qed.

(** Finding: with room for a single token, cutting a pair keeps the whole of one
    sequence as an overflowing encoding, longer than [max_length]. *)
Theorem C11_overflowing_refuted : exists t p input out x,
  post_ok t /\ tz_truncation t = Some p /\ tz_padding t = None /\ 0 < room t p true true /\
  encode t OByte input true = Ok out /\ node out x /\ tp_max_length p < enc_len x.
Proof.
  exists (toy None (Some (mkTruncParams DRight 1 LongestFirst 0)) None), (mkTruncParams DRight 1 LongestFirst 0), (Dual (Raw abc) (Raw abc)).
  do 2 eexists. split; [exact Logic.I|]. split; [reflexivity|]. split; [reflexivity|]. split; [vm_compute; lia|].
  split; [vm_compute; reflexivity|]. split; [eapply node_over; [left; reflexivity|constructor]|]. vm_compute. lia.
Qed.

(** ** C10 *)

(** What [with_truncation] accepts. *)
Theorem C10_accepts : forall t p,
  (with_truncation t (Some p) = Panic <-> tp_max_length p < n_added t false) /\
  (with_truncation t (Some p) = Err tt <-> n_added t false <= tp_max_length p < tp_stride p + n_added t false) /\
  (forall t', with_truncation t (Some p) = Ok t' <->
     tp_stride p + n_added t false <= tp_max_length p /\ t' = set_truncation t (Some p)).
Proof.
  intros t p. unfold with_truncation. destruct (Nat.ltb_spec (tp_max_length p) (n_added t false)).
  { split; [split; [lia|reflexivity]|]. split; [split; [discriminate|lia]|]. intros t'. split; [discriminate|lia]. }
  destruct (Nat.ltb_spec (tp_max_length p - n_added t false) (tp_stride p)).
  { split; [split; [discriminate|lia]|]. split; [split; [lia|reflexivity]|]. intros t'. split; [discriminate|lia]. }
  split; [split; [discriminate|lia]|]. split; [split; [discriminate|lia]|]. intros t'. split.
  - intros E. injection E as <-. split; [lia|reflexivity].
  - intros [_ ->]. reflexivity.
Qed.

Lemma encode_panic_cases t ot input add : post_ok t -> encode t ot input add = Panic ->
  sequences t ot input = Panic \/
  exists e pair, sequences t ot input = Ok (e, pair) /\ truncate_step t e pair add = Panic.
Proof.
  intros K H. rewrite encode_sequences in H. destruct (sequences t ot input) as [[e pair]|x|] eqn:Es; cbn [other bind fst snd] in H; [|discriminate|left; reflexivity].
  right. exists e, pair. split; [reflexivity|]. destruct (sequences_tokenised _ _ _ _ _ Es) as (Te & Tp & _).
  apply (post_process_panic t e pair add K Te Tp). exact H.
Qed.

(** When encoding one text panics after the text was tokenised. *)
Theorem C10_single_exactly : forall t ot a add p e,
  post_ok t -> tz_truncation t = Some p -> encode_single t a 0 ot = Ok e ->
  (encode t ot (Single a) add = Panic <->
   tp_max_length p < (if add then n_added t false else 0) \/
   (tp_strategy p <> OnlySecond /\ 0 < room t p false add /\ room t p false add < enc_len e /\ room t p false add <= tp_stride p)).
Proof.
  intros t ot a add p e K Tt He. pose proof (encode_single_tokenised _ _ _ _ _ He) as Te. cbn [encode]. rewrite He. cbn [other bind].
  rewrite (post_process_panic t e None add K Te) by discriminate. split.
  - intros H. apply (truncate_step_panic t p) in H; [|exact Tt|exact Te|discriminate]. cbn [is_some option_map opt_len] in H.
    destruct H as [H|(k1 & k2 & Hk & H)]; [left; exact H|right]. destruct H as [H|H]; [|lia].
    unfold plan in Hk. destruct (Nat.eqb_spec (room t p false add) 0); [injection Hk as <- <-; lia|].
    destruct (Nat.leb_spec (enc_len e + 0) (room t p false add)); [injection Hk as <- <-; lia|].
    destruct (tp_strategy p); [| |discriminate].
    + injection Hk as <- <-. split; [discriminate|lia].
    + destruct (Nat.ltb_spec 0 (room t p false add)); [|lia]. injection Hk as <- <-. split; [discriminate|lia].
  - intros H. rewrite (truncate_step_eq t p) by exact Tt. cbn [is_some].
    destruct (Nat.leb_spec (if add then n_added t false else 0) (tp_max_length p)) as [Hn|Hn]; [|reflexivity].
    destruct H as [H|(H1 & H2 & H3 & H4)]; [lia|]. rewrite truncate_plan. cbn [tp_max_length tp_strategy tp_stride tp_direction option_map].
    set (m := room t p false add) in *. assert (P : plan (enc_len e) None m (tp_strategy p) = Ok (m, 0)).
    { unfold plan. destruct (Nat.eqb_spec m 0); [lia|]. destruct (Nat.leb_spec (enc_len e + 0) m); [lia|].
      destruct (tp_strategy p); [reflexivity| |congruence]. destruct (Nat.ltb_spec 0 m); [|lia]. rewrite Nat.sub_0_r. reflexivity. }
    rewrite P. cbn [bind fst]. assert (X : truncate e m (tp_stride p) (tp_direction p) = Panic); [|rewrite X; reflexivity].
    apply truncate_panic_iff; [apply same_lengths_parallel, Te|]. auto.
Qed.

(** An accepted setting whose stride is zero, or smaller than the room left by
    special tokens, never makes the encoding of a text panic. *)
Theorem C10_single : forall t0 t ot a add p,
  post_ok t0 -> with_truncation t0 (Some p) = Ok t ->
  (tp_stride p = 0 \/ tp_stride p + n_added t0 false < tp_max_length p) ->
  encode t ot (Single a) add = Panic -> encode_single t a 0 ot = Panic.
Proof.
  intros t0 t ot a add p K A S H. apply C10_accepts in A. destruct A as [A ->].
  destruct (encode_single (set_truncation t0 (Some p)) a 0 ot) as [e|x|] eqn:Es; [exfalso| |reflexivity].
  - apply (C10_single_exactly (set_truncation t0 (Some p)) ot a add p e K eq_refl Es) in H.
    change (n_added (set_truncation t0 (Some p)) false) with (n_added t0 false) in H.
    unfold room in H. change (n_added (set_truncation t0 (Some p)) false) with (n_added t0 false) in H. destruct add; lia.
  - cbn [encode] in H. rewrite Es in H. discriminate.
Qed.

(** For pairs the tokens added to a pair must fit as well, and the stride must be
    zero, or smaller than half the room under [LongestFirst]. *)
Theorem C10_pair : forall t0 t ot a b add p,
  post_ok t0 -> with_truncation t0 (Some p) = Ok t -> n_added t0 true <= tp_max_length p ->
  (tp_stride p = 0 \/ (tp_strategy p = LongestFirst /\ tp_stride p < (tp_max_length p - n_added t0 true) / 2)) ->
  encode t ot (Dual a b) add = Panic -> encode_single t a 0 ot = Panic \/ encode_single t b 1 ot = Panic.
Proof.
  intros t0 t ot a b add p K A N S H. apply C10_accepts in A. destruct A as [A ->]. set (t := set_truncation t0 (Some p)) in *.
  destruct (encode_panic_cases t ot (Dual a b) add K H) as [Q|(e & pair & Q & R)].
  - cbn [sequences] in Q. destruct (encode_single t a 0 ot); cbn [bind] in Q; [|discriminate|left; reflexivity].
    destruct (encode_single t b 1 ot); cbn [bind] in Q; [discriminate|discriminate|right; reflexivity].
  - exfalso. destruct (sequences_tokenised _ _ _ _ _ Q) as (Te & Tp & Is). cbn [is_dual] in Is.
    apply (truncate_step_panic t p) in R; [|reflexivity|exact Te|exact Tp]. rewrite Is in R.
    assert (M : tp_max_length p - n_added t0 true <= room t p true add).
    { unfold room. change (n_added t true) with (n_added t0 true). destruct add; lia. }
    destruct R as [R|(k1 & k2 & Hk & R)].
    + change (n_added t true) with (n_added t0 true) in R. destruct add; lia.
    + apply plan_bounds in Hk. cbn zeta in Hk. destruct Hk as (_ & _ & _ & _ & L). destruct pair as [o|]; [|discriminate].
      cbn [option_map opt_len] in *. destruct S as [S|[S1 S2]]; [lia|]. destruct (L S1) as [L1 L2].
      pose proof (Nat.div_le_mono _ _ 2 ltac:(lia) M). lia.
Qed.

Example C10_example :
  exists t out, with_truncation (toy (Some bert) None None) (Some (mkTruncParams DRight 8 LongestFirst 1)) = Ok t /\
    encode t OByte (Dual (Raw (abc ++ abc)) (Raw (abc ++ de))) true = Ok out /\ length (ids out) = 8 /\ overflowing out <> [].
Proof. do 2 eexists. split; [reflexivity|]. split; [vm_compute; reflexivity|]. split; [reflexivity|discriminate]. Qed.

(** Findings: accepted settings that make encoding panic. *)
Definition accepted_panics (t0 : tokenizer) (p : trunc_params) (input : encode_input) (add : bool) : Prop :=
  exists t, with_truncation t0 (Some p) = Ok t /\ encode t OByte input add = Panic /\
            exists x, sequences t OByte input = Ok x.

(** The stride may equal the room left. *)
Theorem C10_stride_refuted : exists p, accepted_panics (toy (Some bert) None None) p (Single (Raw abc)) true.
Proof. exists (mkTruncParams DRight 4 LongestFirst 2). eexists. split; [reflexivity|]. split; [vm_compute; reflexivity|]. eexists. vm_compute. reflexivity. Qed.

(** Only the tokens added to a single text are looked at: those added to a pair may not fit. *)
Theorem C10_pair_count_refuted : exists p, accepted_panics (toy (Some bert) None None) p (Dual (Raw abc) (Raw de)) true.
Proof. exists (mkTruncParams DRight 2 LongestFirst 0). eexists. split; [reflexivity|]. split; [vm_compute; reflexivity|]. eexists. vm_compute. reflexivity. Qed.

(** Half the room may not exceed the stride. *)
Theorem C10_halves_refuted : exists p, tp_stride p < tp_max_length p /\ accepted_panics (toy None None None) p (Dual (Raw abc) (Raw abc)) true.
Proof. exists (mkTruncParams DRight 4 LongestFirst 2). split; [cbn; lia|]. eexists. split; [reflexivity|]. split; [vm_compute; reflexivity|]. eexists. vm_compute. reflexivity. Qed.

(** Nor may what is left to the sequence that is cut. *)
Theorem C10_leftover_refuted : exists p, tp_strategy p = OnlyFirst /\ tp_stride p < tp_max_length p /\ accepted_panics (toy None None None) p (Dual (Raw abc) (Raw de)) true.
Proof. exists (mkTruncParams DRight 4 OnlyFirst 2). split; [reflexivity|]. split; [cbn; lia|]. eexists. split; [reflexivity|]. split; [vm_compute; reflexivity|]. eexists. vm_compute. reflexivity. Qed.

(** ** C24, whole inputs *)

(** Tokenising only what truncation needs is invisible: if tokenising everything
    and truncating succeeds, so does encoding with early exit, with the same
    tokens. Excluded: pairs under [LongestFirst] with an odd room, both
    sequences being at least [max_length] long. *)
Theorem C24_encode : forall t p ot input add e pair e1 pair1,
  tz_truncation t = Some p ->
  sequences (set_truncation t None) ot input = Ok (e, pair) ->
  truncate_step t e pair add = Ok (e1, pair1) ->
  ~ (exists o, pair = Some o /\ tp_strategy p = LongestFirst /\ Nat.odd (room t p true add) = true /\
       tp_max_length p <= enc_len e /\ tp_max_length p <= enc_len o) ->
  exists el pairl e2 pair2,
    sequences t ot input = Ok (el, pairl) /\ truncate_step t el pairl add = Ok (e2, pair2) /\
    match input, pair2, pair1 with
    | Single a, None, None => same_tokens (tp_direction p) a e2 e1
    | Dual a b, Some o2, Some o1 => same_tokens (tp_direction p) a e2 e1 /\ same_tokens (tp_direction p) b o2 o1
    | _, _, _ => False
    end.
Proof.
  intros t p ot input add e pair e1 pair1 Tt Hs H NF.
  assert (SA : forall sq ty x, encode_single (set_truncation t None) sq ty ot = Ok x ->
    exists xl, encode_single t sq ty ot = Ok xl /\ tokenised x /\ tokenised xl /\ near (tp_max_length p) (enc_len xl) (enc_len x) /\
      agree (tp_direction p) (tp_max_length p) (map no_word (rows xl)) (map no_word (rows x)) /\
      ((tp_direction p = DRight \/ exists ws, sq = PreTokenized ws) ->
        agree (tp_direction p) (tp_max_length p) (map (fun r => r) (rows xl)) (map (fun r => r) (rows x)))).
  { intros sq ty x Hx. destruct (single_agree t p sq ty ot x no_word Tt Hx) as (xl & Hl & A); [left; reflexivity|].
    exists xl. split; [exact Hl|]. pose proof (encode_single_tokenised _ _ _ _ _ Hx) as T1. pose proof (encode_single_tokenised _ _ _ _ _ Hl) as T2.
    split; [exact T1|]. split; [exact T2|]. split; [eapply agree_len; [apply same_lengths_parallel, T2|apply same_lengths_parallel, T1|exact A]|].
    split; [exact A|]. intros G. destruct (single_agree t p sq ty ot x (fun r => r) Tt Hx) as (xl' & Hl' & A'); [right; auto|].
    rewrite Hl in Hl'. injection Hl' as <-. exact A'. }
  assert (TA : forall sq ty x xl k x1, k <= tp_max_length p -> encode_single (set_truncation t None) sq ty ot = Ok x -> encode_single t sq ty ot = Ok xl ->
    truncate x k (tp_stride p) (tp_direction p) = Ok x1 ->
    exists x2, truncate xl k (tp_stride p) (tp_direction p) = Ok x2 /\ same_tokens (tp_direction p) sq x2 x1).
  { intros sq ty x xl k x1 Hk Hx Hxl Hx1. destruct (SA sq ty x Hx) as (xl' & E & T1 & T2 & N & A1 & A2). rewrite Hxl in E. injection E as <-.
    destruct (truncate_agree (tp_direction p) (tp_max_length p) k (tp_stride p) x xl x1 Hk) as (x2 & E2 & _ & G);
      [apply same_lengths_parallel, T1|apply same_lengths_parallel, T2|exact N|exact Hx1|].
    exists x2. split; [exact E2|]. split; [apply G, A1|]. intros D. specialize (G (fun r => r) (A2 D)). rewrite !map_id in G. exact G. }
  rewrite (truncate_step_eq t p) in H by exact Tt.
  destruct (Nat.leb_spec (if add then n_added t (is_some pair) else 0) (tp_max_length p)) as [Hn|Hn]; [|discriminate].
  apply bind_trunc_ok in H. rewrite truncate_plan in H. cbn [tp_max_length tp_strategy tp_stride tp_direction] in H.
  assert (Rm : room t p (is_some pair) add <= tp_max_length p) by (unfold room; lia).
  set (m := room t p (is_some pair) add) in *.
  apply bind_ok in H. destruct H as ([k1 k2] & Hk & H). cbn [fst snd] in H.
  pose proof (plan_bounds _ _ _ _ _ _ Hk) as (_ & _ & B & _). cbn zeta in B.
  apply bind_ok in H. destruct H as (e1' & He & H). apply lift_res_ok in He.
  destruct input as [a|a b]; cbn [sequences] in Hs |- *; apply bind_ok in Hs; destruct Hs as (e0 & Ha & Hs).
  - injection Hs as <- <-. injection H as <- <-. destruct (SA a 0%N e0 Ha) as (el & El & T1 & T2 & N & _).
    destruct (TA a 0%N e0 el k1 e1' ltac:(lia) Ha El He) as (e2 & E2 & S2).
    exists el, None, e2, None. rewrite El. split; [reflexivity|]. split; [|exact S2].
    rewrite (truncate_step_eq t p) by exact Tt. cbn [is_some] in *. destruct (Nat.leb_spec (if add then n_added t false else 0) (tp_max_length p)); [|lia].
    rewrite truncate_plan. cbn [tp_max_length tp_strategy tp_stride tp_direction option_map] in *. fold m.
    rewrite (plan_near (enc_len e0) (enc_len el) None None m (tp_max_length p) (tp_strategy p) (k1, k2) Rm N Logic.I Hk). cbn [bind fst snd].
    rewrite E2. reflexivity.
  - apply bind_ok in Hs. destruct Hs as (o0 & Hb & Hs). injection Hs as <- <-.
    apply bind_ok in H. destruct H as (o1 & Ho & H). apply lift_res_ok in Ho. injection H as <- <-.
    destruct (SA a 0%N e0 Ha) as (el & El & T1 & T2 & N & _). destruct (SA b 1%N o0 Hb) as (ol & Ol & U1 & U2 & N' & _).
    destruct (TA a 0%N e0 el k1 e1' ltac:(lia) Ha El He) as (e2 & E2 & S2).
    destruct (TA b 1%N o0 ol k2 o1 ltac:(lia) Hb Ol Ho) as (o2 & O2 & S2').
    exists el, (Some ol), e2, (Some o2). rewrite El. cbn [bind]. rewrite Ol. split; [reflexivity|]. split; [|split; [exact S2|exact S2']].
    rewrite (truncate_step_eq t p) by exact Tt. cbn [is_some] in *. destruct (Nat.leb_spec (if add then n_added t true else 0) (tp_max_length p)); [|lia].
    rewrite truncate_plan. cbn [tp_max_length tp_strategy tp_stride tp_direction option_map] in *. fold m.
    rewrite (plan_near (enc_len e0) (enc_len el) (Some (enc_len o0)) (Some (enc_len ol)) m (tp_max_length p) (tp_strategy p) (k1, k2) Rm N); [|split; [exact N'|]|exact Hk].
    + cbn [bind fst snd]. rewrite E2. cbn [lift_res bind]. rewrite O2. reflexivity.
    + intros (F1 & F2 & F3 & F4). apply NF. exists o0. auto.
Qed.

(** Nor does early exit hide a failure: if truncating everything fails, so does
    truncating what was tokenised. Excluded: pairs under [OnlyFirst] whose first
    sequence is empty. *)
Theorem C24_fails : forall t p ot input add e pair x,
  tz_truncation t = Some p ->
  sequences (set_truncation t None) ot input = Ok (e, pair) ->
  truncate_step t e pair add = Err x ->
  ~ (pair <> None /\ tp_strategy p = OnlyFirst /\ enc_len e = 0) ->
  encode t ot input add = Err x.
Proof.
  intros t p ot input add e pair x Tt Hs H NE. rewrite encode_sequences.
  assert (SA : forall sq ty y, encode_single (set_truncation t None) sq ty ot = Ok y ->
    exists yl, encode_single t sq ty ot = Ok yl /\ near (tp_max_length p) (enc_len yl) (enc_len y) /\
      (tp_strategy p = OnlySecond -> ty = 0%N -> enc_len yl = enc_len y)).
  { intros sq ty y Hy. destruct (single_agree t p sq ty ot y no_word Tt Hy) as (yl & Hl & A); [left; reflexivity|].
    exists yl. split; [exact Hl|]. pose proof (encode_single_tokenised _ _ _ _ _ Hy) as T1. pose proof (encode_single_tokenised _ _ _ _ _ Hl) as T2.
    split; [eapply agree_len; [apply same_lengths_parallel, T2|apply same_lengths_parallel, T1|exact A]|].
    intros S2 ->. rewrite <- (unlimited_first t p sq ot Tt S2) in Hy. congruence. }
  rewrite (truncate_step_eq t p) in H by exact Tt.
  destruct (Nat.leb_spec (if add then n_added t (is_some pair) else 0) (tp_max_length p)) as [Hn|Hn]; [|discriminate].
  rewrite truncate_plan in H. cbn [tp_max_length tp_strategy tp_stride tp_direction] in H.
  assert (Rm : room t p (is_some pair) add <= tp_max_length p) by (unfold room; lia).
  set (m := room t p (is_some pair) add) in *.
  destruct (plan (enc_len e) (option_map enc_len pair) m (tp_strategy p)) as [[k1 k2]|y|] eqn:Hk; cbn [bind fst snd trunc] in H; [| |discriminate].
  - exfalso. destruct (truncate e k1 (tp_stride p) (tp_direction p)) as [e1|x1|] eqn:E1; cbn [lift_res bind] in H; [|apply truncate_no_err in E1; destruct E1|discriminate].
    destruct pair as [o|]; [|discriminate]. destruct (truncate o k2 (tp_stride p) (tp_direction p)) as [o1|x1|] eqn:E2; cbn [lift_res bind] in H; [discriminate|apply truncate_no_err in E2; destruct E2|discriminate].
  - injection H as <-. destruct input as [a|a b]; cbn [sequences] in Hs |- *; apply bind_ok in Hs; destruct Hs as (e0 & Ha & Hs).
    + injection Hs as <- <-. destruct (SA a 0%N e0 Ha) as (el & El & N & N0). rewrite El. cbn [bind other fst snd]. unfold post_process.
      rewrite (truncate_step_eq t p) by exact Tt. cbn [is_some] in *. destruct (Nat.leb_spec (if add then n_added t false else 0) (tp_max_length p)); [|lia].
      rewrite truncate_plan. cbn [tp_max_length tp_strategy tp_stride tp_direction option_map] in *. fold m.
      rewrite (plan_near_err (enc_len e0) (enc_len el) None None m (tp_max_length p) (tp_strategy p) y Rm N); [reflexivity| |exact Logic.I|exact Hk].
      intros S2. apply N0; auto.
    + apply bind_ok in Hs. destruct Hs as (o0 & Hb & Hs). injection Hs as <- <-.
      destruct (SA a 0%N e0 Ha) as (el & El & N & N0). destruct (SA b 1%N o0 Hb) as (ol & Ol & N' & _).
      rewrite El. cbn [bind]. rewrite Ol. cbn [bind other fst snd]. unfold post_process.
      rewrite (truncate_step_eq t p) by exact Tt. cbn [is_some] in *. destruct (Nat.leb_spec (if add then n_added t true else 0) (tp_max_length p)); [|lia].
      rewrite truncate_plan. cbn [tp_max_length tp_strategy tp_stride tp_direction option_map] in *. fold m.
      rewrite (plan_near_err (enc_len e0) (enc_len el) (Some (enc_len o0)) (Some (enc_len ol)) m (tp_max_length p) (tp_strategy p) y Rm N); [reflexivity| | |exact Hk].
      * intros S2. apply N0; auto.
      * split; [exact N'|]. intros [F1 F2]. apply NE. split; [discriminate|auto].
Qed.

Example C24_fails_example :
  let t := speller (Some (mkTruncParams DRight 2 OnlySecond 0)) in
  exists e, sequences (set_truncation t None) OByte (Single (Raw abc)) = Ok (e, None) /\
    truncate_step t e None true = Err (ETrunc SecondSequenceNotProvided) /\ encode t OByte (Single (Raw abc)) true = Err (ETrunc SecondSequenceNotProvided).
Proof. eexists. split; [vm_compute; reflexivity|]. split; vm_compute; reflexivity. Qed.

(** Finding: an empty first sequence, which cannot give up tokens, is an error
    that early exit hides by cutting the second sequence. *)
Theorem C24_empty_first_refuted : exists p b e o,
  let t := speller (Some p) in
  tp_strategy p = OnlyFirst /\ sequences (set_truncation t None) OByte (Dual (Raw []) (Raw b)) = Ok (e, Some o) /\
  truncate_step t e (Some o) true = Err (ETrunc SequenceTooShort) /\
  exists out, encode t OByte (Dual (Raw []) (Raw b)) true = Ok out /\ ids out = [97; 98]%N.
Proof.
  exists (mkTruncParams DRight 2 OnlyFirst 0), abc. do 2 eexists. cbn zeta. split; [reflexivity|]. split; [vm_compute; reflexivity|].
  split; [vm_compute; reflexivity|]. eexists. split; vm_compute; reflexivity.
Qed.

(** Finding: the excluded case really differs. The longer sequence gets the odd
    token, and limiting makes the two equally long. *)
Theorem C24_odd_pair_refuted : exists p a b e o e1 o1 el ol e2 o2,
  let t := speller (Some p) in
  sequences (set_truncation t None) OByte (Dual a b) = Ok (e, Some o) /\ truncate_step t e (Some o) true = Ok (e1, Some o1) /\
  sequences t OByte (Dual a b) = Ok (el, Some ol) /\ truncate_step t el (Some ol) true = Ok (e2, Some o2) /\
  ids e1 = [97; 98]%N /\ ids o1 = [97]%N /\ ids e2 = [97]%N /\ ids o2 = [97; 98]%N.
Proof.
  exists (mkTruncParams DRight 3 LongestFirst 0), (Raw (abc ++ de)), (Raw (abc ++ [102]%N)). do 8 eexists.
  cbn zeta. do 4 (split; [vm_compute; reflexivity|]). vm_compute. auto.
Qed.

Example C24_encode_example :
  let t := speller (Some (mkTruncParams DLeft 2 OnlyFirst 0)) in
  exists e e1 el e2, sequences (set_truncation t None) OByte (Single (Raw abc)) = Ok (e, None) /\ enc_len e = 3 /\
    truncate_step t e None true = Ok (e1, None) /\ sequences t OByte (Single (Raw abc)) = Ok (el, None) /\ enc_len el = 2 /\
    truncate_step t el None true = Ok (e2, None) /\ ids e1 = [98; 99]%N /\ ids e2 = [98; 99]%N.
Proof. cbn zeta. do 4 eexists. repeat (split; [vm_compute; reflexivity|]). vm_compute. reflexivity. Qed.
