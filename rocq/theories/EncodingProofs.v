From Verif Require Import Base EncodingModel EncodingSpec.

(** ** List facts *)

Lemma combine_skipn {A B} n (l : list A) (l' : list B) :
  skipn n (combine l l') = combine (skipn n l) (skipn n l').
Proof.
  revert l l'; induction n as [|n IH]; intros l l'; [reflexivity|].
  destruct l as [|a l]; destruct l' as [|b l']; cbn; try reflexivity.
  - destruct (skipn n l); reflexivity.
  - apply IH.
Qed.

Lemma combine_app {A B} (l1 l2 : list A) (m1 m2 : list B) :
  length l1 = length m1 -> combine (l1 ++ l2) (m1 ++ m2) = combine l1 m1 ++ combine l2 m2.
Proof.
  revert m1; induction l1 as [|a l1 IH]; intros [|b m1] H; cbn in *; try lia; [reflexivity|].
  rewrite IH by lia; reflexivity.
Qed.

Lemma combine_repeat {A B} (a : A) (b : B) n :
  combine (repeat a n) (repeat b n) = repeat (a, b) n.
Proof. induction n as [|n IH]; cbn; [reflexivity|now rewrite IH]. Qed.

Lemma map_repeat' {A B} (f : A -> B) a n : map f (repeat a n) = repeat (f a) n.
Proof. induction n as [|n IH]; cbn; [reflexivity|now rewrite IH]. Qed.

Lemma rev_firstn_skipn {A} (l : list A) a b :
  a <= b -> b <= length l ->
  rev (firstn (b - a) (skipn a l)) = firstn (b - a) (skipn (length l - b) (rev l)).
Proof.
  intros Hab Hb.
  replace l with (firstn a l ++ firstn (b - a) (skipn a l) ++ skipn b l) at 2 3.
  2:{ replace (skipn b l) with (skipn (b - a) (skipn a l)).
      - rewrite firstn_skipn. apply firstn_skipn.
      - rewrite skipn_skipn; f_equal; lia. }
  rewrite !rev_app_distr.
  rewrite <- app_assoc.
  assert (Hl : length l - b = length (rev (skipn b l))).
  { rewrite rev_length, skipn_length; reflexivity. }
  assert (Hlen : length (firstn a l ++ firstn (b - a) (skipn a l) ++ skipn b l) = length l).
  { rewrite !app_length, !firstn_length, !skipn_length; lia. }
  rewrite Hlen, Hl, skipn_app, skipn_all, Nat.sub_diag; cbn [skipn app].
  rewrite firstn_app.
  assert (Hm : length (rev (firstn (b - a) (skipn a l))) = b - a).
  { rewrite rev_length, firstn_length, skipn_length; lia. }
  rewrite Hm, Nat.sub_diag; cbn [firstn]; rewrite app_nil_r.
  symmetry; apply firstn_all2; lia.
Qed.

(** ** Rows *)

Lemma rows_length e : same_lengths e -> length (rows e) = enc_len e.
Proof.
  intros (H1 & H2 & H3 & H4 & H5 & H6); unfold rows, enc_len in *.
  rewrite map_length, !combine_length; lia.
Qed.

Lemma same_lengths_parallel e : parallel e -> same_lengths e.
Proof. intros [H _]; exact H. Qed.

Lemma cut_ok e a b :
  same_lengths e -> a <= b -> b <= enc_len e ->
  cut e (a, b) =
  Ok (mkEnc (firstn (b - a) (skipn a (ids e))) (firstn (b - a) (skipn a (type_ids e)))
            (firstn (b - a) (skipn a (tokens e))) (firstn (b - a) (skipn a (words e)))
            (firstn (b - a) (skipn a (offsets e)))
            (firstn (b - a) (skipn a (special_tokens_mask e)))
            (firstn (b - a) (skipn a (attention_mask e))) [] []).
Proof.
  intros (H1 & H2 & H3 & H4 & H5 & H6) Hab Hb; unfold cut, enc_len in *.
  rewrite !slice_ok by lia; reflexivity.
Qed.

Definition cut_total (e : encoding) (r : nat * nat) : encoding :=
  let '(a, b) := r in
  mkEnc (firstn (b - a) (skipn a (ids e))) (firstn (b - a) (skipn a (type_ids e)))
            (firstn (b - a) (skipn a (tokens e))) (firstn (b - a) (skipn a (words e)))
            (firstn (b - a) (skipn a (offsets e)))
            (firstn (b - a) (skipn a (special_tokens_mask e)))
            (firstn (b - a) (skipn a (attention_mask e))) [] [].

Definition range_ok (len : nat) (r : nat * nat) : Prop := fst r <= snd r /\ snd r <= len.

Lemma cut_total_ok e r : same_lengths e -> range_ok (enc_len e) r -> cut e r = Ok (cut_total e r).
Proof. intros H [H1 H2]; destruct r as [a b]; apply cut_ok; assumption. Qed.

Lemma map_res_cut e rs :
  same_lengths e -> Forall (range_ok (enc_len e)) rs ->
  map_res (cut e) rs = Ok (map (cut_total e) rs).
Proof.
  intros H; induction 1 as [|r rs Hr _ IH]; cbn [map_res map]; [reflexivity|].
  rewrite cut_total_ok by assumption; cbn [bind]; rewrite IH; reflexivity.
Qed.

Definition window {A} (l : list A) (r : nat * nat) : list A :=
  firstn (snd r - fst r) (skipn (fst r) l).

Lemma rows_cut_total e r : rows (cut_total e r) = window (rows e) r.
Proof.
  destruct r as [a b]; unfold rows, cut_total, window; cbn [ids type_ids tokens words offsets
    special_tokens_mask attention_mask fst snd].
  rewrite skipn_map, firstn_map, !combine_skipn, !combine_firstn.
  reflexivity.
Qed.

Lemma cut_total_same_lengths e r : same_lengths e -> same_lengths (cut_total e r).
Proof.
  intros (H1 & H2 & H3 & H4 & H5 & H6); destruct r as [a b].
  unfold same_lengths, enc_len, cut_total in *; cbn [ids type_ids tokens words offsets
    special_tokens_mask attention_mask].
  repeat split; rewrite !firstn_length, !skipn_length; congruence.
Qed.

(** ** Windows *)

Lemma right_parts_ended len mx starts : right_parts len mx starts true = [].
Proof. induction starts as [|s l IH]; cbn; auto. Qed.

Lemma left_parts_ended mx stops : left_parts mx stops true = [].
Proof.
  induction stops as [|s l IH]; cbn; [reflexivity|].
  rewrite andb_false_r; exact IH.
Qed.

Lemma tiles_single {A} mx st (l : list A) : length l <= mx -> tiles mx st l [l].
Proof.
  intros H; split; [|split].
  - exists l, []; cbn. rewrite app_nil_r, firstn_all2 by lia; auto.
  - intros [|[|i]] x; cbn; intros Hx; inversion Hx; subst; split; lia.
  - intros [|[|i]] x y; cbn; intros Hx Hy; discriminate.
Qed.

Lemma tiles_cons {A} mx st (l : list A) ws :
  st < mx -> mx < length l -> tiles mx st (skipn (mx - st) l) ws ->
  tiles mx st l (firstn mx l :: ws).
Proof.
  intros Hst Hl ((w & rest & -> & Hw & Hcat) & Hlen & Hov).
  assert (Hfs : skipn (mx - st) (firstn mx l) = firstn st (skipn (mx - st) l)).
  { rewrite skipn_firstn_comm; f_equal; lia. }
  assert (Hwl : st < length w).
  { rewrite Hw, firstn_length, skipn_length; lia. }
  assert (Hwst : firstn st w = firstn st (skipn (mx - st) l)).
  { rewrite Hw, firstn_firstn; f_equal; lia. }
  split; [|split].
  - exists (firstn mx l), (w :: rest); split; [reflexivity|split; [reflexivity|]].
    cbn [map concat].
    rewrite <- (firstn_skipn mx l) at 2; f_equal.
    replace (skipn mx l) with (skipn st (skipn (mx - st) l)) by (rewrite skipn_skipn; f_equal; lia).
    rewrite <- Hcat at 1.
    rewrite skipn_app; f_equal.
    replace (st - length w) with 0 by lia; reflexivity.
  - intros [|i] x; cbn [nth_error]; intros Hx.
    + inversion Hx; subst x; rewrite firstn_length; split; [lia|intros; lia].
    + destruct (Hlen i x Hx) as [H1 H2]; split; [exact H1|].
      cbn [length]; intros; apply H2; cbn [length]; lia.
  - intros [|i] x y; cbn [nth_error]; intros Hx Hy.
    + inversion Hx; subst x; inversion Hy; subst y.
      rewrite Hfs, Hwst; auto.
    + apply (Hov i); assumption.
Qed.

Lemma ceil_mul len off : 0 < off -> len <= (len + off - 1) / off * off.
Proof.
  intros Ho.
  pose proof (Nat.div_mod (len + off - 1) off ltac:(lia)) as H1.
  pose proof (Nat.mod_upper_bound (len + off - 1) off ltac:(lia)) as H2.
  rewrite Nat.mul_comm; lia.
Qed.

Lemma right_parts_ok len mx st m : forall k,
  0 < mx -> st < mx -> k * (mx - st) < len -> len <= (k + m) * (mx - st) ->
  Forall (range_ok len) (right_parts len mx (map (fun i => i * (mx - st)) (seq k m)) false) /\
  forall A (l : list A), length l = len ->
  tiles mx st (skipn (k * (mx - st)) l)
    (map (window l) (right_parts len mx (map (fun i => i * (mx - st)) (seq k m)) false)).
Proof.
  induction m as [|m IH]; intros k Hm Hst Hk Hn.
  - rewrite Nat.add_0_r in Hn; lia.
  - cbn [seq map right_parts].
    destruct (Nat.eqb_spec (Nat.min (k * (mx - st) + mx) len) len) as [He|He].
    + rewrite right_parts_ended. split.
      * repeat constructor; cbn [fst snd]; lia.
      * intros A l Hl; cbn [map].
        replace (window l _) with (skipn (k * (mx - st)) l).
        -- apply tiles_single; rewrite skipn_length; lia.
        -- unfold window; cbn [fst snd]; rewrite firstn_all2; [reflexivity|].
           rewrite skipn_length; lia.
    + destruct (IH (S k)) as [IH1 IH2]; [lia|lia|cbn [Nat.mul]; lia|cbn [Nat.mul Nat.add] in *; lia|].
      split.
      * constructor; [cbn; unfold range_ok; cbn [fst snd]; lia|exact IH1].
      * intros A l Hl; cbn [map].
        replace (window l (k * (mx - st), Nat.min (k * (mx - st) + mx) len))
          with (firstn mx (skipn (k * (mx - st)) l)).
        2:{ unfold window; cbn [fst snd]; f_equal; lia. }
        apply tiles_cons; [lia|rewrite skipn_length; lia|].
        rewrite skipn_skipn.
        replace (mx - st + k * (mx - st)) with (S k * (mx - st)) by (cbn [Nat.mul]; lia).
        apply IH2; exact Hl.
Qed.

Definition mirror (len : nat) (r : nat * nat) : nat * nat := (len - snd r, len - fst r).

Lemma left_parts_mirror len mx starts b :
  0 < mx -> Forall (fun s => s < len) starts ->
  left_parts mx (map (fun i => len - 1 - i) starts) b
  = map (mirror len) (right_parts len mx starts b).
Proof.
  intros Hm Hs; revert b; induction Hs as [|s starts Hs _ IH]; intros b;
    cbn [map left_parts right_parts]; [reflexivity|].
  destruct b; cbn [negb].
  - rewrite andb_false_r; apply IH.
  - replace (len - 1 - s + 1 - mx <? len - 1 - s + 1) with true by (symmetry; apply Nat.ltb_lt; lia).
    cbn [andb map]; f_equal.
    + unfold mirror; cbn [fst snd]; f_equal; lia.
    + rewrite IH; do 2 f_equal.
      destruct (Nat.eqb_spec (len - 1 - s + 1 - mx) 0);
        destruct (Nat.eqb_spec (Nat.min (s + mx) len) len); lia.
Qed.

Lemma parts_right len mx st :
  0 < mx -> st < mx -> 0 < len ->
  Forall (range_ok len) (parts_ranges len mx st DRight) /\
  forall A (l : list A), length l = len ->
    tiles mx st l (map (window l) (parts_ranges len mx st DRight)).
Proof.
  intros Hm Hst Hl; unfold parts_ranges, step_by.
  destruct (right_parts_ok len mx st ((len + (mx - st) - 1) / (mx - st)) 0) as [H1 H2];
    [lia|lia|lia|cbn [Nat.add]; apply ceil_mul; lia|].
  split; [exact H1|]. intros A l Hll; specialize (H2 A l Hll). exact H2.
Qed.

Lemma step_by_lt len off : 0 < off -> Forall (fun s => s < len) (step_by len off).
Proof.
  intros Ho; unfold step_by; apply Forall_forall; intros x Hx.
  apply in_map_iff in Hx; destruct Hx as (i & <- & Hi); apply in_seq in Hi.
  pose proof (Nat.div_mod (len + off - 1) off ltac:(lia)) as H1.
  assert (Hle : S i <= (len + off - 1) / off) by lia.
  apply (Nat.mul_le_mono_r _ _ off) in Hle.
  rewrite (Nat.mul_comm _ off) in Hle; cbn [Nat.mul] in *; lia.
Qed.

Lemma parts_left_mirror len mx st :
  0 < mx -> st < mx ->
  parts_ranges len mx st DLeft = map (mirror len) (parts_ranges len mx st DRight).
Proof.
  intros Hm Hst; unfold parts_ranges; apply left_parts_mirror; [exact Hm|].
  apply step_by_lt; lia.
Qed.

Lemma parts_left len mx st :
  0 < mx -> st < mx -> 0 < len ->
  Forall (range_ok len) (parts_ranges len mx st DLeft) /\
  forall A (l : list A), length l = len ->
    tiles_from_end mx st l (map (window l) (parts_ranges len mx st DLeft)).
Proof.
  intros Hm Hst Hl; rewrite parts_left_mirror by assumption.
  destruct (parts_right len mx st Hm Hst Hl) as [H1 H2]; split.
  - apply Forall_forall; intros r Hr; apply in_map_iff in Hr; destruct Hr as (r' & <- & Hr').
    rewrite Forall_forall in H1; specialize (H1 _ Hr').
    unfold range_ok, mirror in *; cbn [fst snd]; lia.
  - intros A l Hll; unfold tiles_from_end.
    specialize (H2 A (rev l)); rewrite rev_length in H2; specialize (H2 Hll).
    rewrite !map_map.
    rewrite Forall_forall in H1.
    replace (map (fun x => rev (window l (mirror len x))) (parts_ranges len mx st DRight))
      with (map (window (rev l)) (parts_ranges len mx st DRight)); [exact H2|].
    apply map_ext_in; intros r Hr; specialize (H1 _ Hr); destruct r as [a b];
      unfold range_ok in H1; cbn [fst snd] in H1.
    unfold window, mirror; cbn [fst snd].
    rewrite rev_firstn_skipn by lia.
    f_equal; [lia|f_equal; lia].
Qed.

Lemma tiles_nonempty {A} mx st (l : list A) ws : tiles mx st l ws -> ws <> [].
Proof. intros ((w & rest & -> & _) & _); discriminate. Qed.

(** ** Main truncation lemma *)

Lemma truncate_main e mx st d :
  same_lengths e -> 0 < mx -> mx < enc_len e -> st < mx ->
  exists e', truncate e mx st d = Ok e' /\
    same_lengths e' /\ sequence_ranges e' = [] /\
    Forall (fun o => same_lengths o /\ overflowing o = [] /\ sequence_ranges o = []) (overflowing e') /\
    match d with
    | DRight => tiles mx st (rows e) (rows e' :: map rows (overflowing e'))
    | DLeft => tiles_from_end mx st (rows e) (rows e' :: map rows (overflowing e'))
    end.
Proof.
  intros Hp Hm Hl Hst.
  assert (HP : Forall (range_ok (enc_len e)) (parts_ranges (enc_len e) mx st d) /\
               match d with
               | DRight => tiles mx st (rows e) (map (window (rows e)) (parts_ranges (enc_len e) mx st d))
               | DLeft => tiles_from_end mx st (rows e)
                            (map (window (rows e)) (parts_ranges (enc_len e) mx st d))
               end).
  { destruct d.
    - destruct (parts_left (enc_len e) mx st) as [H1 H2]; [lia|lia|lia|].
      split; [exact H1|apply H2, rows_length, Hp].
    - destruct (parts_right (enc_len e) mx st) as [H1 H2]; [lia|lia|lia|].
      split; [exact H1|apply H2, rows_length, Hp]. }
  destruct HP as [HF HT].
  unfold truncate. fold (enc_len e).
  destruct (Nat.leb_spec (enc_len e) mx); [lia|].
  destruct (Nat.eqb_spec mx 0); [lia|].
  destruct (Nat.ltb_spec st mx); [|lia]; cbn [negb].
  destruct (parts_ranges (enc_len e) mx st d) as [|r rs] eqn:Hpr.
  { exfalso; destruct d; [unfold tiles_from_end in HT|]; apply tiles_nonempty in HT; apply HT; reflexivity. }
  inversion HF as [|? ? Hr Hrs]; subst.
  rewrite cut_total_ok by assumption; cbn [bind].
  rewrite map_res_cut by assumption; cbn [bind].
  eexists; split; [reflexivity|].
  split; [|split; [|split]].
  - pose proof (cut_total_same_lengths e r Hp) as H7; destruct r as [a b]; exact H7.
  - destruct r as [a b]; reflexivity.
  - cbn [set_overflowing overflowing]. apply Forall_forall; intros o Ho.
    apply in_map_iff in Ho; destruct Ho as (r' & <- & _).
    split; [apply cut_total_same_lengths, Hp|]. destruct r'; split; reflexivity.
  - assert (Heq : rows (set_overflowing (cut_total e r) (map (cut_total e) rs))
              :: map rows (overflowing (set_overflowing (cut_total e r) (map (cut_total e) rs)))
              = map (window (rows e)) (r :: rs)).
    { cbn [map set_overflowing overflowing]. f_equal.
      - rewrite <- rows_cut_total; destruct r as [a b]; reflexivity.
      - rewrite map_map; apply map_ext; intros r'; apply rows_cut_total. }
    rewrite Heq; exact HT.
Qed.

(** ** Panics of truncate *)
Lemma truncate_panic_iff e mx st d :
  same_lengths e ->
  (truncate e mx st d = Panic <-> 0 < mx /\ mx < enc_len e /\ mx <= st).
Proof.
  intros Hp; split.
  - intros H. unfold truncate in H; fold (enc_len e) in H.
    destruct (Nat.leb_spec (enc_len e) mx); [discriminate|].
    destruct (Nat.eqb_spec mx 0); [discriminate|].
    destruct (Nat.ltb_spec st mx) as [Hs|Hs]; [|lia].
    destruct (truncate_main e mx st d Hp) as (e' & He' & _); [lia|lia|lia|].
    unfold truncate in He'; fold (enc_len e) in He'.
    destruct (Nat.leb_spec (enc_len e) mx); [lia|].
    destruct (Nat.eqb_spec mx 0); [lia|].
    destruct (Nat.ltb_spec st mx); [|lia].
    cbn [negb] in *; rewrite H in He'; discriminate.
  - intros (H1 & H2 & H3); unfold truncate; fold (enc_len e).
    destruct (Nat.leb_spec (enc_len e) mx); [lia|].
    destruct (Nat.eqb_spec mx 0); [lia|].
    destruct (Nat.ltb_spec st mx); [lia|]; reflexivity.
Qed.

Lemma truncate_no_err e mx st d x : truncate e mx st d <> Err x.
Proof.
  unfold truncate.
  destruct (length (ids e) <=? mx); [discriminate|].
  destruct (mx =? 0); [discriminate|].
  destruct (negb (st <? mx)); [discriminate|].
  destruct (parts_ranges _ _ _ _) as [|r rs]; [discriminate|].
  assert (Hc : forall e r y, cut e r <> Err y).
  { intros e0 [a b] y; unfold cut, slice.
    repeat match goal with
    | |- context [if ?c then _ else _] => destruct c; cbn [bind]; try discriminate
    end. }
  destruct (cut e r) as [m|y|] eqn:E; cbn [bind]; try discriminate; [|now apply Hc in E].
  assert (Hm : forall rs y, map_res (cut e) rs <> Err y).
  { clear -Hc; induction rs as [|r rs IH]; intros y; cbn [map_res]; [discriminate|].
    destruct (cut e r) eqn:E; cbn [bind]; try discriminate; [|now apply Hc in E].
    destruct (map_res (cut e) rs) eqn:E2; cbn [bind]; try discriminate. congruence. }
  destruct (map_res (cut e) rs) eqn:E2; cbn [bind]; try discriminate; now apply Hm in E2.
Qed.
