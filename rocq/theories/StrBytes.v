(** Byte positions inside strings (lists of chars): the parts of the Rust [str]
    API that the repository uses with byte offsets.  Library semantics, no
    definition of the repository is modelled here. *)
From Verif Require Import Base.

(** [s.split_at(n)]: [None] when [n] is not a character boundary. *)
Fixpoint bsplit (n : nat) (s : str) : option (str * str) :=
  match n with
  | 0 => Some ([], s)
  | _ => match s with
         | [] => None
         | c :: s' =>
             if len_utf8 c <=? n then
               match bsplit (n - len_utf8 c) s' with
               | Some (a, b) => Some (c :: a, b)
               | None => None
               end
             else None
         end
  end.

(** [s.is_char_boundary(n)]. *)
Definition is_boundary (s : str) (n : nat) : bool :=
  match bsplit n s with Some _ => true | None => false end.

(** [s.get(a..b)]: [None] unless [a <= b] and both are boundaries. *)
Definition str_get (s : str) (a b : nat) : option str :=
  if a <=? b then
    match bsplit b s with
    | None => None
    | Some (p, _) => match bsplit a p with
                     | Some (_, m) => Some m
                     | None => None
                     end
    end
  else None.

(** [s.char_indices()]: each char with its byte position, from position [b]. *)
Fixpoint char_indices (b : nat) (s : str) : list (nat * char) :=
  match s with
  | [] => []
  | c :: s' => (b, c) :: char_indices (b + len_utf8 c) s'
  end.

Lemma bsplit_0 s : bsplit 0 s = Some ([], s).
Proof. destruct s; reflexivity. Qed.

Lemma bsplit_app a b : bsplit (blen a) (a ++ b) = Some (a, b).
Proof.
  induction a as [|c a IH]; cbn [blen app]; [apply bsplit_0|].
  pose proof (len_utf8_pos c).
  destruct (len_utf8 c + blen a) as [|n] eqn:E; [lia|].
  cbn [bsplit]. rewrite <- E.
  replace (len_utf8 c <=? len_utf8 c + blen a) with true by lia.
  replace (len_utf8 c + blen a - len_utf8 c) with (blen a) by lia.
  rewrite IH; reflexivity.
Qed.

Lemma bsplit_inv s : forall n a b, bsplit n s = Some (a, b) -> s = a ++ b /\ n = blen a.
Proof.
  induction s as [|c s IH]; intros n a b H.
  - destruct n; cbn in H; inversion H; subst; auto.
  - destruct n as [|n]; cbn [bsplit] in H; [inversion H; subst; auto|].
    destruct (len_utf8 c <=? S n) eqn:E; [|discriminate].
    destruct (bsplit (S n - len_utf8 c) s) as [[a' b']|] eqn:E2; [|discriminate].
    inversion H; subst. apply IH in E2; destruct E2 as [-> E2]. cbn [app blen]; split; [reflexivity|lia].
Qed.

Lemma is_boundary_spec s n : is_boundary s n = true <-> exists p q, s = p ++ q /\ n = blen p.
Proof.
  unfold is_boundary; split.
  - destruct (bsplit n s) as [[p q]|] eqn:E; [|discriminate]. intros _.
    apply bsplit_inv in E; exists p, q; exact E.
  - intros (p & q & -> & ->); rewrite bsplit_app; reflexivity.
Qed.

Lemma is_boundary_le s n : is_boundary s n = true -> n <= blen s.
Proof. intros H; apply is_boundary_spec in H; destruct H as (p & q & -> & ->); rewrite blen_app; lia. Qed.

Lemma is_boundary_0 s : is_boundary s 0 = true.
Proof. destruct s; reflexivity. Qed.

Lemma is_boundary_len s : is_boundary s (blen s) = true.
Proof. apply is_boundary_spec; exists s, []; rewrite app_nil_r; auto. Qed.

Lemma str_get_inv s a b m :
  str_get s a b = Some m -> exists p q, s = p ++ m ++ q /\ a = blen p /\ b = blen p + blen m.
Proof.
  unfold str_get; destruct (a <=? b) eqn:E; [|discriminate].
  destruct (bsplit b s) as [[x y]|] eqn:E1; [|discriminate].
  destruct (bsplit a x) as [[u v]|] eqn:E2; [|discriminate].
  intros H; inversion H; subst. apply bsplit_inv in E1, E2.
  destruct E1 as [-> ->]; destruct E2 as [-> ->]. exists u, y.
  rewrite <- app_assoc, blen_app; auto.
Qed.

Lemma str_get_app p m q : str_get (p ++ m ++ q) (blen p) (blen p + blen m) = Some m.
Proof.
  unfold str_get. replace (blen p <=? blen p + blen m) with true by lia.
  rewrite <- blen_app, app_assoc, bsplit_app, bsplit_app; reflexivity.
Qed.

Lemma str_get_app' p m q a b :
  a = blen p -> b = blen p + blen m -> str_get (p ++ m ++ q) a b = Some m.
Proof. intros -> ->; apply str_get_app. Qed.

Lemma blen_0 s : blen s = 0 -> s = [].
Proof. destruct s as [|c s]; [reflexivity|]. cbn [blen]; pose proof (len_utf8_pos c); lia. Qed.

Lemma blen_prefix_cmp (a b c d : str) :
  a ++ b = c ++ d -> blen a <= blen c -> exists m, c = a ++ m /\ b = m ++ d.
Proof.
  revert c; induction a as [|x a IH]; intros c H Hl; cbn [app] in *; [exists c; auto|].
  destruct c as [|y c].
  - cbn [blen app] in *; pose proof (len_utf8_pos x); lia.
  - cbn [app blen] in *; inversion H; subst.
    destruct (IH c H2 ltac:(lia)) as (m & -> & ->); exists m; auto.
Qed.

Lemma blen_split_eq (a b c d : str) : a ++ b = c ++ d -> blen a = blen c -> a = c /\ b = d.
Proof.
  intros H Hl; destruct (blen_prefix_cmp a b c d H ltac:(lia)) as (m & -> & ->).
  rewrite blen_app in Hl. assert (m = []) by (apply blen_0; lia). subst; rewrite app_nil_r; auto.
Qed.

Lemma str_get_none_iff s a b :
  str_get s a b = None <-> ~ (a <= b /\ is_boundary s a = true /\ is_boundary s b = true).
Proof.
  split.
  - intros H (H1 & H2 & H3). apply is_boundary_spec in H2, H3.
    destruct H2 as (p & q & Hs & ->); destruct H3 as (p' & q' & Hs' & ->).
    destruct (blen_prefix_cmp p q p' q' ltac:(congruence) H1) as (m & -> & ->).
    subst s; rewrite <- app_assoc in *. rewrite blen_app in H. rewrite str_get_app in H; discriminate.
  - intros H; destruct (str_get s a b) as [m|] eqn:E; [|reflexivity]; exfalso; apply H.
    apply str_get_inv in E; destruct E as (p & q & -> & -> & ->).
    split; [lia|split; apply is_boundary_spec].
    + exists p, (m ++ q); auto.
    + exists (p ++ m), q; rewrite <- app_assoc, blen_app; auto.
Qed.

Lemma str_get_full s : str_get s 0 (blen s) = Some s.
Proof. pose proof (str_get_app [] s []) as H; cbn [app blen Nat.add] in H; rewrite app_nil_r in H; exact H. Qed.
