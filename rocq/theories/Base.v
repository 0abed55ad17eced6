(** Shared vocabulary of the model: results with explicit panics, characters,
    strings, byte lengths and slices.

    Source root: /repo/tokenizers/src. *)
From Coq Require Export List Arith NArith Lia Bool.
From Coq Require Export ZifyBool ZifyNat ZifyN.
Export ListNotations.

(** Rust [Result<T, _>] plus the possibility of a panic.  An error or panic
    carries a small tag, never the Rust message.  Modelling convention, not a
    definition of the repository. *)
Inductive res (E A : Type) : Type :=
| Ok (a : A)
| Err (e : E)
| Panic.
Arguments Ok {E A} a.
Arguments Err {E A} e.
Arguments Panic {E A}.

Definition bind {E A B} (r : res E A) (f : A -> res E B) : res E B :=
  match r with
  | Ok a => f a
  | Err e => Err e
  | Panic => Panic
  end.

Notation "'let!' x := e 'in' f" := (bind e (fun x => f))
  (at level 200, x pattern, right associativity).

Definition of_option {E A} (o : option A) : res E A :=
  match o with Some a => Ok a | None => Panic end.

Definition no_panic {E A} (r : res E A) : Prop := r <> Panic.

Fixpoint map_res {E A B} (f : A -> res E B) (l : list A) : res E (list B) :=
  match l with
  | [] => Ok []
  | a :: l' => let! b := f a in let! bs := map_res f l' in Ok (b :: bs)
  end.

(** A Rust [char] is its scalar value; a [str] is its sequence of chars.
    Byte offsets of the Rust code are sums of [len_utf8]. *)
Notation char := N (only parsing).
Notation str := (list N) (only parsing).

(** [char::len_utf8] (core library). *)
Definition len_utf8 (c : char) : nat :=
  if N.ltb c 128 then 1
  else if N.ltb c 2048 then 2
  else if N.ltb c 65536 then 3
  else 4.

Fixpoint blen (s : str) : nat :=
  match s with
  | [] => 0
  | c :: s' => len_utf8 c + blen s'
  end.

Definition str_eqb (a b : str) : bool := if list_eq_dec N.eq_dec a b then true else false.

(** Offsets of tokens: [(usize, usize)], tokenizer/mod.rs:60 (type Offsets). *)
Notation offsets_t := (prod nat nat) (only parsing).

(** [&v[a..b]]: panics unless [a <= b <= len]. *)
Definition slice {E A} (l : list A) (a b : nat) : res E (list A) :=
  if (a <=? b) && (b <=? length l) then Ok (firstn (b - a) (skipn a l)) else Panic.

(** [v.get(a..b)]: [None] unless [a <= b <= len]. *)
Definition get_range {A} (l : list A) (a b : nat) : option (list A) :=
  if (a <=? b) && (b <=? length l) then Some (firstn (b - a) (skipn a l)) else None.

Definition is_nil {A} (l : list A) : bool := match l with [] => true | _ => false end.

Lemma len_utf8_pos c : 1 <= len_utf8 c <= 4.
Proof. unfold len_utf8; repeat destruct (N.ltb _ _); lia. Qed.

Lemma blen_app a b : blen (a ++ b) = blen a + blen b.
Proof. induction a as [|c a IH]; cbn [blen app]; lia. Qed.

Lemma str_eqb_eq a b : str_eqb a b = true <-> a = b.
Proof. unfold str_eqb; destruct (list_eq_dec N.eq_dec a b); split; congruence. Qed.

Lemma str_eqb_refl a : str_eqb a a = true.
Proof. apply str_eqb_eq; reflexivity. Qed.

Lemma bind_ok {E A B} (r : res E A) (f : A -> res E B) b :
  bind r f = Ok b -> exists a, r = Ok a /\ f a = Ok b.
Proof. destruct r as [a|e|]; cbn; intros H; try discriminate; eauto. Qed.

Lemma is_nil_true {A} (l : list A) : is_nil l = true <-> l = [].
Proof. destruct l; cbn; split; congruence. Qed.

Lemma slice_ok {E A} (l : list A) a b :
  a <= b -> b <= length l -> @slice E A l a b = Ok (firstn (b - a) (skipn a l)).
Proof.
  intros H1 H2; unfold slice.
  replace (a <=? b) with true by (symmetry; apply Nat.leb_le; lia).
  replace (b <=? length l) with true by (symmetry; apply Nat.leb_le; lia).
  reflexivity.
Qed.

Lemma skipn_skipn {A} (x y : nat) (l : list A) : skipn x (skipn y l) = skipn (x + y) l.
Proof.
  revert l; induction y as [|y IH]; intros l; [now rewrite Nat.add_0_r|].
  destruct l as [|a l]; [now rewrite !skipn_nil|].
  rewrite Nat.add_succ_r; cbn [skipn]; apply IH.
Qed.
