(** What a user expects of the list of the n best segmentations. *)
From Coq Require Import Permutation Sorted.
From Verif Require Import Base StrBytes EncodingModel UnigramModel UnigramSpec.

Section spec.
  Context {W : Type} (A : arith W).

  (** A bag: taking out gives an element and leaves the others. *)
  Definition bag_pop (pop : list (hypothesis W) -> option (hypothesis W * list (hypothesis W))) : Prop :=
    (forall l, pop l = None -> l = []) /\ forall l h r, pop l = Some (h, r) -> Permutation l (h :: r).
  (** A heap: the element taken out has a greatest priority. *)
  Definition heap_pop (pop : list (hypothesis W) -> option (hypothesis W * list (hypothesis W))) : Prop :=
    bag_pop pop /\ forall l h r x, pop l = Some (h, r) -> In x l -> a_gtb A (h_fx x) (h_fx h) = false.

  (** The nodes of a path, read in the lattice, are the items of [seg]. *)
  Definition reads (la : lattice W) (path : list nat) (seg : list (str * N * W)) : Prop :=
    Forall2 (fun k it => lat_piece la k = Ok (fst (fst it)) /\ exists n, nth_error (la_nodes la) k = Some n /\ ln_id n = snd (fst it) /\ ln_score n = snd it) path seg.

  (** Exact scores: addition is associative, and adding 0 changes nothing. *)
  Record exact_laws (ok : W -> Prop) : Prop := {
    xl_laws : score_laws A ok;
    xl_assoc : forall a b c, ok a -> ok b -> ok c -> a_add A a (a_add A b c) = a_add A (a_add A a b) c;
    xl_zero : forall a, ok a -> a_add A a (a_zero A) = a }.

  (** Every character is a token, or there is an unknown token. *)
  Definition covered (m : unigram W) (s : str) : Prop :=
    (exists u, u_unk m = Some u) \/ forall c, In c s -> In [c] (map fst (u_vocab m)).

  (** The scores of the tokens that are in the text can be compared and added. *)
  Definition scores_in (ok : W -> Prop) (m : unigram W) (s : str) : Prop :=
    score_laws A ok /\ (forall t id w a b, last_entry (u_vocab m) t id w -> s = a ++ t ++ b -> ok w) /\ ok (unk_score A m).

  (** From the best to the worst. *)
  Definition descending (segs : list (list (str * N * W))) : Prop :=
    StronglySorted (fun a b => a_gtb A (total A b) (total A a) = false) segs.
End spec.
