(** The sums computed position by position. *)
From Coq Require Import Permutation Ring.
From Verif Require Import Base StrBytes ListFacts AMap Utf8 EncodingModel BpeWordModel BpeWordProofs BpeModel TrieModel UnigramModel UnigramSpec UnigramProofs UnigramProofs2 MarginalModel MarginalSpec MarginalProofs.

Section sweeps.
  Context {W K : Type} (A : arith W) (M : marith W K) (zero one : K) (inv : K -> K) (HX : exact_marith A M zero one inv).
  Add Ring Kring2 : (xm_ring _ _ _ _ _ HX).
  Notation ksum := (ksum M zero).
  Infix "+K" := (ma_plus M) (at level 50, left associativity).
  Infix "*K" := (ma_mul M) (at level 40, left associativity).

  Lemma lse_exp x y : ma_exp M (log_sum_exp A M x y false) = ma_exp M x +K ma_exp M y.
  Proof. unfold log_sum_exp. destruct (a_gtb A x y); rewrite (xm_far _ _ _ _ _ HX), (xm_near _ _ _ _ _ HX); ring. Qed.

  Context (nodes : list (lnode W)) (weigh : W -> W) (Hw : forall x, ma_exp M (weigh x) = ma_exp M x).
  (** The likelihood of each node and the value expected of its cell. *)
  Context (sc val : nat -> K) (Hsc : forall i n, nth_error nodes i = Some n -> ma_exp M (ln_score n) = sc i).

  Definition right (acc : list W) (i : nat) : Prop := exists a, nth_error acc i = Some a /\ ma_exp M a = val i.
  Definition others (acc acc' : list W) (P : nat -> Prop) : Prop := length acc' = length acc /\ forall i, ~ P i -> nth_error acc' i = nth_error acc i.

  Lemma sum_rest first to from : forall acc x, nth_error acc to = Some x -> ~ In to from ->
    (forall l, In l from -> right acc l /\ exists n, nth_error nodes l = Some n /\ ln_id n <> ln_id first) ->
    exists acc' v, sum_into A M nodes weigh first to from acc = Ok acc' /\ others acc acc' (eq to) /\ nth_error acc' to = Some v /\ ma_exp M v = ma_exp M x +K ksum (map (fun l => sc l *K val l) from).
  Proof.
    induction from as [|l from IH]; intros acc x E NI H.
    - exists acc, x. split; [reflexivity|]. split; [split; auto|]. split; [exact E|]. unfold MarginalSpec.ksum. cbn. ring.
    - destruct (H l) as ((a & E1 & V1) & n & E2 & D); [left; reflexivity|]. cbn [sum_into]. rewrite E2, E1, E. cbn [of_option bind]. destruct (N.eqb_spec (ln_id n) (ln_id first)) as [X|_]; [contradiction|].
      set (y := log_sum_exp A M x (weigh (a_add A (ln_score n) a)) false).
      assert (Ey : ma_exp M y = ma_exp M x +K sc l *K val l) by (unfold y; rewrite lse_exp, Hw, (xm_add _ _ _ _ _ HX), V1, (Hsc _ _ E2); reflexivity).
      assert (LT : to < length acc) by (apply nth_error_Some; congruence).
      destruct (IH (upd acc to (fun _ => y)) y) as (acc' & v & E3 & O & E4 & V).
      + rewrite nth_error_upd, Nat.eqb_refl, E. reflexivity.
      + intros I. apply NI. right. exact I.
      + intros l' Hl'. destruct (H l') as ((a' & E1' & V1') & n' & Q); [right; exact Hl'|]. split; [|exists n'; exact Q]. exists a'. split; [|exact V1']. rewrite nth_error_upd. destruct (Nat.eqb_spec to l') as [<-|_]; [|exact E1']. exfalso. apply NI. right. exact Hl'.
      + exists acc', v. split; [exact E3|]. split; [|split; [exact E4|]].
        * destruct O as [O1 O2]. rewrite upd_length in O1. split; [exact O1|]. intros i Hi. rewrite (O2 i Hi), nth_error_upd. destruct (Nat.eqb_spec to i); [contradiction|reflexivity].
        * rewrite V, Ey. unfold MarginalSpec.ksum. cbn. ring.
  Qed.

  (** One cell: the first node starts the sum. *)
  Lemma sum_cell f first to from acc : nth_error nodes f = Some first -> to < length acc -> ~ In to (f :: from) ->
    (forall l, In l (f :: from) -> right acc l) -> (forall l, In l from -> exists n, nth_error nodes l = Some n /\ ln_id n <> ln_id first) ->
    exists acc' v, sum_into A M nodes weigh first to (f :: from) acc = Ok acc' /\ others acc acc' (eq to) /\ nth_error acc' to = Some v /\ ma_exp M v = ksum (map (fun l => sc l *K val l) (f :: from)).
  Proof.
    intros E1 LT NI R D. destruct (nth_error acc to) as [x|] eqn:E; [|apply nth_error_None in E; lia]. destruct (R f) as (a & E2 & V2); [left; reflexivity|].
    cbn [sum_into]. rewrite E1, E2, E. cbn [of_option bind]. rewrite N.eqb_refl. cbn [log_sum_exp]. set (y := weigh (a_add A (ln_score first) a)).
    change (log_sum_exp A M x y true) with y.
    assert (Ey : ma_exp M y = sc f *K val f) by (unfold y; rewrite Hw, (xm_add _ _ _ _ _ HX), V2, (Hsc _ _ E1); reflexivity).
    destruct (sum_rest first to from (upd acc to (fun _ => y)) y) as (acc' & v & E3 & O & E4 & V).
    - rewrite nth_error_upd, Nat.eqb_refl, E. reflexivity.
    - intros I. apply NI. right. exact I.
    - intros l Hl. split; [|apply D; exact Hl]. destruct (R l) as (b & Eb & Vb); [right; exact Hl|]. exists b. split; [|exact Vb]. rewrite nth_error_upd. destruct (Nat.eqb_spec to l) as [<-|_]; [|exact Eb]. exfalso. apply NI. right. exact Hl.
    - exists acc', v. split; [exact E3|]. split; [|split; [exact E4|rewrite V, Ey; reflexivity]].
      destruct O as [O1 O2]. rewrite upd_length in O1. split; [exact O1|]. intros i Hi. rewrite (O2 i Hi), nth_error_upd. destruct (Nat.eqb_spec to i); [contradiction|reflexivity].
  Qed.

  (** The cells of one position. *)
  Lemma sum_cells f from tos : forall acc, (exists first, nth_error nodes f = Some first /\ forall l, In l from -> exists n, nth_error nodes l = Some n /\ ln_id n <> ln_id first) ->
    (forall t, In t tos -> t < length acc /\ ~ In t (f :: from) /\ ksum (map (fun l => sc l *K val l) (f :: from)) = val t) -> (forall l, In l (f :: from) -> right acc l) ->
    exists acc', sums_into A M nodes weigh tos (f :: from) acc = Ok acc' /\ others acc acc' (fun i => In i tos) /\ forall t, In t tos -> right acc' t.
  Proof.
    induction tos as [|t tos IH]; intros acc (first & E1 & D) T R.
    - exists acc. split; [reflexivity|]. split; [split; auto|]. intros t [].
    - destruct (T t) as (LT & NI & V); [left; reflexivity|]. cbn [sums_into]. rewrite E1. cbn [of_option bind].
      destruct (sum_cell f first t from acc E1 LT NI R D) as (acc1 & v & E2 & [O1 O2] & E3 & V3). rewrite E2. cbn [bind].
      assert (KR : forall i, right acc i -> i <> t -> right acc1 i) by (intros i (a & Q1 & Q2) N1; exists a; split; [rewrite O2; congruence|exact Q2]).
      destruct (IH acc1) as (acc' & E4 & [O3 O4] & R').
      + exists first. auto.
      + intros t' Ht'. destruct (T t') as (LT' & Q); [right; exact Ht'|]. split; [lia|exact Q].
      + intros l Hl. apply KR; [apply R; exact Hl|]. intros ->. contradiction.
      + exists acc'. split; [exact E4|]. split.
        * split; [lia|]. intros i Hi. rewrite O4, O2; [reflexivity| |]; intros X; apply Hi; [left; exact X|right; exact X].
        * intros t' [<-|Ht']; [|apply R'; exact Ht']. destruct (in_dec Nat.eq_dec t tos) as [I|I]; [apply R'; exact I|]. exists v. split; [rewrite O4; assumption|congruence].
  Qed.

  Context (tos froms : list (list nat)) (start : nat).
  (** What has been computed after the positions [done]. *)
  Definition known_after (done : list nat) (i : nat) : Prop := i = start \/ exists pos ts, In pos done /\ nth_error tos pos = Some ts /\ In i ts.
  Definition step_ok (done : list nat) (pos : nat) : Prop :=
    exists ts fs, nth_error tos pos = Some ts /\ nth_error froms pos = Some fs /\
      (ts <> [] -> exists f from first, fs = f :: from /\ nth_error nodes f = Some first /\ (forall l, In l from -> exists n, nth_error nodes l = Some n /\ ln_id n <> ln_id first) /\
         (forall l, In l fs -> known_after done l) /\
         forall t, In t ts -> t < length nodes /\ ~ known_after done t /\ ksum (map (fun l => sc l *K val l) fs) = val t).

  Lemma sweep_spec positions : forall done acc, length acc = length nodes -> (forall i, known_after done i -> right acc i) ->
    (forall before pos after, positions = before ++ pos :: after -> step_ok (done ++ before) pos) ->
    exists acc', sweep A M nodes weigh tos froms positions acc = Ok acc' /\ length acc' = length nodes /\ forall i, known_after (done ++ positions) i -> right acc' i.
  Proof.
    induction positions as [|pos positions IH]; intros done acc LA R S.
    - exists acc. rewrite app_nil_r. auto.
    - destruct (S [] pos positions eq_refl) as (ts & fs & E1 & E2 & H). rewrite app_nil_r in H. cbn [sweep]. rewrite E1, E2. cbn [of_option bind].
      assert (G : exists acc1, sums_into A M nodes weigh ts fs acc = Ok acc1 /\ length acc1 = length nodes /\ forall i, known_after (done ++ [pos]) i -> right acc1 i).
      { destruct ts as [|t0 ts].
        - exists acc. split; [reflexivity|]. split; [exact LA|]. intros i [->|(pos' & ts' & I & E & It)]; [apply R; left; reflexivity|]. apply in_app_or in I. destruct I as [I|[<-|[]]]; [apply R; right; eauto|]. rewrite E1 in E. injection E as <-. destruct It.
        - destruct H as (f & from & first & -> & Ef & D & KF & T); [discriminate|].
          destruct (sum_cells f from (t0 :: ts) acc) as (acc1 & E & [O1 O2] & RT).
          + exists first. auto.
          + intros t Ht. destruct (T t Ht) as (T1 & T2 & T3). split; [lia|]. split; [|exact T3]. intros I. apply T2. apply KF. exact I.
          + intros l Hl. apply R, KF, Hl.
          + exists acc1. split; [exact E|]. split; [lia|]. intros i Hi. destruct (in_dec Nat.eq_dec i (t0 :: ts)) as [I|I]; [apply RT; exact I|].
            assert (KI : known_after done i).
            { destruct Hi as [->|(pos' & ts' & Ip & Et & It)]; [left; reflexivity|]. apply in_app_or in Ip. destruct Ip as [Ip|[<-|[]]]; [right; eauto|]. rewrite E1 in Et. injection Et as <-. contradiction. }
            destruct (R i KI) as (a & Ea & Va). exists a. split; [rewrite O2; assumption|exact Va]. }
      destruct G as (acc1 & E & LA1 & R1). rewrite E. cbn [bind]. destruct (IH (done ++ [pos]) acc1 LA1 R1) as (acc' & E' & L' & R').
      + intros before p after EQ. specialize (S (pos :: before) p after). cbn in S. rewrite <- app_assoc. apply S. rewrite EQ. reflexivity.
      + exists acc'. split; [exact E'|]. split; [exact L'|]. intros i Hi. apply R'. rewrite <- app_assoc. exact Hi.
  Qed.
End sweeps.
