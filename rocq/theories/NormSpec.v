(** Specification vocabulary for normalised strings (C12-C20): written from the
    English properties, using only the fields of [nstring] and lists. *)
From Coq Require Import ZArith.
From Verif Require Import Base StrBytes NormModel.

(** C12: one alignment per normalised byte; each is a range of the original
    text between character boundaries; alignments never go backwards; all the
    bytes of one character share one alignment. *)
Record aligned (ns : nstring) : Prop := {
  aligned_len : length (n_alignments ns) = blen (n_normalized ns);
  aligned_range : forall i a b, nth_error (n_alignments ns) i = Some (a, b) ->
      a <= b /\ is_boundary (n_original ns) a = true /\ is_boundary (n_original ns) b = true;
  aligned_sorted : forall i j a b a' b', i <= j ->
      nth_error (n_alignments ns) i = Some (a, b) ->
      nth_error (n_alignments ns) j = Some (a', b') -> a <= a' /\ b <= b';
  aligned_char : forall p c q k, n_normalized ns = p ++ c :: q -> k < len_utf8 c ->
      nth_error (n_alignments ns) (blen p + k) = nth_error (n_alignments ns) (blen p)
}.

(** The documented contract of a list of changes for [n] characters
    (normalizer.rs:306-316, 430-440): every change [<= 0] replaces one of the
    remaining characters, so there must be one left.  (Removing more than what
    is left is allowed.) *)
Fixpoint changes_fit (n : nat) (dest : list (char * Z)) : Prop :=
  match dest with
  | [] => True
  | (_, ch) :: d =>
      if (0 <? ch)%Z then changes_fit n d
      else 1 <= n /\ changes_fit (n - 1 - Z.to_nat (- ch)) d
  end.

(** Histories whose explicit [transform_range] calls respect that contract;
    nothing is asked of the other operations. *)
Definition in_contract (ns : nstring) (op : norm_op) : Prop :=
  match op with
  | MTransformRange r dest k =>
      forall t, n_get_range ns r = Some t -> changes_fit (length t - k) dest
  | _ => True
  end.

Inductive norm_reachable (s : str) : nstring -> Prop :=
| norm_start : norm_reachable s (nfrom s)
| norm_step ns op ns' :
    norm_reachable s ns -> in_contract ns op -> apply_norm_op ns op = Ok ns' -> norm_reachable s ns'.

(** A normalised text in which each character carries its original range. *)
Definition ctext (cal : list (char * (nat * nat))) : str := map fst cal.
Definition cbytes (cal : list (char * (nat * nat))) : list (nat * nat) :=
  flat_map (fun ca => repeat (snd ca) (len_utf8 (fst ca))) cal.

(** [ns] is the text [map fst cal], each character aligned as [cal] says. *)
Definition shows (ns : nstring) (cal : list (char * (nat * nat))) : Prop :=
  n_normalized ns = ctext cal /\ n_alignments ns = cbytes cal.

(** Same original text at the same place. *)
Definition same_source (a b : nstring) : Prop :=
  n_original a = n_original b /\ n_shift a = n_shift b.

(** The range carried by the last of a sequence of characters. *)
Definition last_al (d : nat * nat) (cal : list (char * (nat * nat))) : nat * nat := last (map snd cal) d.

(** The first character comes from a non-empty original range; every character does. *)
Definition head_wide (ns : nstring) : Prop :=
  match n_alignments ns with [] => True | a :: _ => fst a < snd a end.
Definition solid (ns : nstring) : Prop := Forall (fun a => fst a < snd a) (n_alignments ns).

(** C19: what is left after dropping leading / trailing characters satisfying [w]. *)
Definition all_ws (w : char -> bool) (cal : list (char * (nat * nat))) : Prop :=
  Forall (fun ca => w (fst ca) = true) cal.
Definition no_ws_head (w : char -> bool) (cal : list (char * (nat * nat))) : Prop :=
  match cal with [] => True | ca :: _ => w (fst ca) = false end.
Definition no_ws_last (w : char -> bool) (cal : list (char * (nat * nat))) : Prop :=
  no_ws_head w (rev cal).

(** Text cut into consecutive segments, each flagged as a match or not: the
    meaning of a list of byte ranges over it. *)
Section segments.
  Context {A : Type} (size : A -> nat).

  Fixpoint seg_offsets (b : nat) (segs : list (list A * bool)) : list ((nat * nat) * bool) :=
    match segs with
    | [] => []
    | (t, f) :: r =>
        let e := b + list_sum (map size t) in ((b, e), f) :: seg_offsets e r
    end.
End segments.

(** [ms] lists, in order and without gap, the byte ranges of the segments
    [segs] of the text [s]. *)
Definition covers_text (ms : list ((nat * nat) * bool)) (segs : list (str * bool)) (s : str) : Prop :=
  s = concat (map fst segs) /\ ms = seg_offsets len_utf8 0 segs.

(** The same for segments of characters carrying their ranges. *)
Definition csize (ca : char * (nat * nat)) : nat := len_utf8 (fst ca).

(** C14, C15: [ns'] is the part of [ns] showing the characters [seg]: it shows
    the same characters; when there are some, its original text is the original
    text of [ns] from the start of the first range to the end of the last one,
    its shift says where that is, and the ranges are relative to it. *)
Definition part_of (ns : nstring) (seg : list (char * (nat * nat))) (ns' : nstring) : Prop :=
  match seg with
  | [] => n_normalized ns' = [] /\ n_original ns' = [] /\ n_alignments ns' = []
  | (c, a) :: r =>
      exists u v,
        n_original ns = u ++ n_original ns' ++ v /\
        fst a = blen u /\ snd (last_al a r) = blen u + blen (n_original ns') /\
        n_shift ns' = n_shift ns + blen u /\
        shows ns' (map (fun ca => (fst ca, (fst (snd ca) - blen u, snd (snd ca) - blen u))) seg)
  end.

(** C15: the pieces each delimiter behaviour promises. *)
Section behaviours.
  Context {A : Type}.
  Implicit Types segs : list (list A * bool).

  Definition spec_isolated segs : list (list A) := map fst segs.
  Definition spec_removed segs : list (list A) := map fst (filter (fun s => negb (snd s)) segs).

  (** A match joins the unmatched text just before it. *)
  Fixpoint spec_previous segs : list (list A) :=
    match segs with
    | (t, false) :: (((d, true) :: r) as r') => (t ++ d) :: spec_previous r
    | (t, _) :: r => t :: spec_previous r
    | [] => []
    end.

  (** A match joins the unmatched text just after it. *)
  Fixpoint spec_next segs : list (list A) :=
    match segs with
    | (d, true) :: (((t, false) :: r) as r') => (d ++ t) :: spec_next r
    | (t, _) :: r => t :: spec_next r
    | [] => []
    end.

  (** Maximal runs of segments with the same flag are glued. *)
  Fixpoint spec_contiguous segs : list (list A) :=
    match segs with
    | [] => []
    | (t, f) :: r =>
        match r with
        | [] => [t]
        | (_, f') :: _ =>
            if Bool.eqb f f' then
              match spec_contiguous r with
              | u :: us => (t ++ u) :: us
              | [] => [t]
              end
            else t :: spec_contiguous r
        end
    end.

  Definition spec_split (b : behavior) segs : list (list A) :=
    match b with
    | Isolated => spec_isolated segs
    | Removed => spec_removed segs
    | MergedWithPrevious => spec_previous segs
    | MergedWithNext => spec_next segs
    | Contiguous => spec_contiguous segs
    end.
End behaviours.

(** C20: every flagged segment replaced by [content]; its characters carry the
    range of the last character before the end of the match ((0,0) when there
    is none). *)
Fixpoint spec_replace (content : str) (prev : nat * nat)
         (segs : list (list (char * (nat * nat)) * bool)) : list (char * (nat * nat)) :=
  match segs with
  | [] => []
  | (t, f) :: r =>
      let prev' := last_al prev t in
      (if f then map (fun c => (c, prev')) content else t) ++ spec_replace content prev' r
  end.

(** C17: operations whose use respects the documented contract and does not
    insert text before the beginning of everything. *)
Definition starts_by_replacing (dest : list (char * Z)) : Prop :=
  match dest with [] => True | (_, ch) :: _ => (ch <= 0)%Z end.

Definition safe_op (ns : nstring) (op : norm_op) : Prop :=
  match op with
  | MTransformRange r dest k =>
      starts_by_replacing dest /\
      exists t, n_get_range ns r = Some t /\ changes_fit (length t - k) dest
  | MTransform dest k =>
      starts_by_replacing dest /\ changes_fit (length (n_normalized ns) - k) dest
  | MPrepend s => s <> []
  | MAppend s => n_normalized ns <> [] \/ s = []
  | MCase f => forall c, f c <> []
  | MReplace find content =>
      exists segs, covers_text (find (n_normalized ns)) segs (n_normalized ns) /\
                   (forall t, In (t, true) segs -> t <> [])
  | MFilter _ | MMap _ | MClear | MStrip _ _ _ | MSlice _ => True
  end.

Inductive safe_reachable (s : str) : nstring -> Prop :=
| safe_start : safe_reachable s (nfrom s)
| safe_step ns op ns' :
    safe_reachable s ns -> safe_op ns op -> apply_norm_op ns op = Ok ns' -> safe_reachable s ns'.
