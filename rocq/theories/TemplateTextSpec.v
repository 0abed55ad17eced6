(** Specification vocabulary for templates written as text. *)
From Coq Require Import DecimalN DecimalPos.
From Verif Require Import Base EncodingModel ProcessorsModel.

Definition digit (c : char) : Prop := (48 <= c <= 57)%N.
(** The number that a list of digits stands for. *)
Definition value (ds : str) : N := fold_left (fun n c => 10 * n + (c - 48))%N ds 0%N.
(** A text that is read as the 32 bit number [n]: digits, perhaps after a [+]. *)
Definition number (s : str) (n : N) : Prop :=
  exists ds, (s = ds \/ s = 43%N :: ds) /\ ds <> [] /\ Forall digit ds /\ n = value ds /\ (n < 2 ^ 32)%N.

(** What stands for a piece, before the type id: [$], [$A], [$a] and [$n] for the
    first sequence, the last with type id n, [$B] and [$b] for the second one, any
    text that does not begin with [$] for the special token of that name. *)
Inductive names : str -> piece -> Prop :=
| names_bare : names [36%N] (PSeq SeqA 0)
| names_A c : c = 65%N \/ c = 97%N -> names [36%N; c] (PSeq SeqA 0)
| names_B c : c = 66%N \/ c = 98%N -> names [36%N; c] (PSeq SeqB 0)
| names_type t n : number t n -> names (36%N :: t) (PSeq SeqA n)
| names_special s : hd_error s <> Some 36%N -> names s (PSpecial s 0).

Definition retyped (p : piece) (n : N) : piece :=
  match p with PSeq s _ => PSeq s n | PSpecial name _ => PSpecial name n end.

(** A piece as text: perhaps followed by a colon and a type id. *)
Definition piece_text (s : str) (p : piece) : Prop :=
  (~ In 58%N s /\ names s p) \/
  exists id t q n, s = id ++ [58%N] ++ t /\ ~ In 58%N id /\ ~ In 58%N t /\ names id q /\ number t n /\ p = retyped q n.

(** Texts with a space between each two. *)
Fixpoint spaced (l : list str) : str :=
  match l with
  | [] => []
  | [s] => s
  | s :: l' => s ++ [32%N] ++ spaced l'
  end.

(** How a template can be written: the decimal digits of a number, [$A:n], [$B:n], [name:n]. *)
Fixpoint digits_of (d : Decimal.uint) : str :=
  match d with
  | Decimal.Nil => []
  | Decimal.D0 d => 48%N :: digits_of d | Decimal.D1 d => 49%N :: digits_of d | Decimal.D2 d => 50%N :: digits_of d | Decimal.D3 d => 51%N :: digits_of d
  | Decimal.D4 d => 52%N :: digits_of d | Decimal.D5 d => 53%N :: digits_of d | Decimal.D6 d => 54%N :: digits_of d | Decimal.D7 d => 55%N :: digits_of d
  | Decimal.D8 d => 56%N :: digits_of d | Decimal.D9 d => 57%N :: digits_of d
  end.
Definition write_number (n : N) : str := digits_of (N.to_uint n).
Definition write_piece (p : piece) : str :=
  match p with
  | PSeq SeqA n => [36; 65; 58]%N ++ write_number n
  | PSeq SeqB n => [36; 66; 58]%N ++ write_number n
  | PSpecial name n => name ++ [58%N] ++ write_number n
  end.
(** Names that can be written: no colon, no space, no [$] at the beginning. *)
Definition writable (p : piece) : Prop :=
  match p with
  | PSeq _ n => (n < 2 ^ 32)%N
  | PSpecial name n => (n < 2 ^ 32)%N /\ ~ In 58%N name /\ ~ In 32%N name /\ hd_error name <> Some 36%N
  end.
