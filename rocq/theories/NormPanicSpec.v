(** Specification of C17: exactly when an operation on a normalised text panics. *)
From Coq Require Import ZArith.
From Verif Require Import Base StrBytes NormModel NormSpec.

(** The first [n] characters of [ns], and no more, come from an empty range of the original
    text: they were inserted in front of everything. *)
Definition front (ns : nstring) (n : nat) : Prop :=
  exists cal, shows ns cal /\ n <= length cal /\
    (forall ca, In ca (firstn n cal) -> fst (snd ca) = snd (snd ca)) /\
    (forall ca, nth_error cal n = Some ca -> fst (snd ca) < snd (snd ca)).

(** [t] is [m] between two runs of white space, as long as possible on the sides that are
    stripped. *)
Record strips (w : char -> bool) (left right : bool) (t a m b : str) : Prop := {
  st_text : t = a ++ m ++ b;
  st_left : Forall (fun c => w c = true) a;
  st_right : Forall (fun c => w c = true) b;
  st_no_left : left = false -> a = [];
  st_no_right : right = false -> b = [];
  st_head : left = true -> forall c x, m = c :: x -> w c = false;
  st_last : right = true -> forall x c, m = x ++ [c] -> w c = false }.

(** Ranges that [transform_range] cannot take: of the normalised text, those that are not
    between two characters; of the original text, the empty ones at a position that is not
    between two characters of the normalised one. *)
Definition bad_range (ns : nstring) (r : nrange) : Prop :=
  match r with
  | RNormalized s e => let '(a, b) := full_range s e (n_len ns) in
      ~ (a <= b /\ is_boundary (n_normalized ns) a = true /\ is_boundary (n_normalized ns) b = true)
  | ROriginal s e => let '(a, b) := full_range s e (n_len_original ns) in a = b /\ is_boundary (n_normalized ns) a = false
  end.

(** When an operation panics on a text of which the first [n] characters were inserted in
    front. *)
Definition panics_when (ns : nstring) (n : nat) (op : norm_op) : Prop :=
  let t := n_normalized ns in
  let k := length t - n in
  match op with
  | MMap _ => n_original ns <> [] /\ 0 < n
  | MCase f => n_original ns <> [] /\ k < length (filter (fun c => negb (is_nil (f c))) t)
  | MFilter keep => n_original ns <> [] /\ exists c, In c (skipn k t) /\ keep c = true
  | MStrip w l r => n_original ns <> [] /\ exists a m b, strips w l r t a m b /\ (a <> [] \/ b <> []) /\ m <> [] /\ length b < n
  | MTransform dest i => (n_original ns = [] /\ t = [] /\ ~ changes_fit 0 dest) \/ (n_original ns <> [] /\ t <> [] /\ ~ changes_fit (k - i) dest)
  | MTransformRange r _ _ => bad_range ns r
  | MPrepend _ | MAppend _ | MReplace _ _ | MClear | MSlice _ => False
  end.

(** What is asked of a call: the documented contract of [transform_range], and that the
    matches of a pattern cut the text. *)
Definition sensible (ns : nstring) (op : norm_op) : Prop :=
  in_contract ns op /\
  match op with MReplace find _ => exists segs, covers_text (find (n_normalized ns)) segs (n_normalized ns) | _ => True end.

(** A history of such calls. *)
Fixpoint sensible_calls (ns : nstring) (ops : list norm_op) : Prop :=
  match ops with
  | [] => True
  | op :: ops' => sensible ns op /\ forall ns', apply_norm_op ns op = Ok ns' -> sensible_calls ns' ops'
  end.

(** The text after an operation that should make [new] of it. *)
Definition written (ns : nstring) (n : nat) (new : str) : str :=
  match n_original ns, n_normalized ns with
  | [], t => new ++ t
  | _, [] => []
  | _, t => firstn n t ++ new
  end.
