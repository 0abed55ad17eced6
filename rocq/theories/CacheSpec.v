(** When a cache should not be seen. *)
From Verif Require Import Base StrBytes AMap EncodingModel BpeWordModel BpeModel CacheModel.

(** The settings that decide the words may be assigned ([OSet]) only if the cache
    is cleared before the next call on that model.  [dropout] and
    [ignore_merges] ([OSetPlain]) may be assigned at any time. *)
Fixpoint disciplined (dirty : list nat) (ops : list op) : Prop :=
  match ops with
  | [] => True
  | OSet k _ :: ops' => disciplined (k :: dirty) ops'
  | OClear k :: ops' => disciplined (remove Nat.eq_dec k dirty) ops'
  | OStart _ k _ _ :: ops' => ~ In k dirty /\ disciplined dirty ops'
  | _ :: ops' => disciplined dirty ops'
  end.

Fixpoint sdisciplined {M R} (dirty : bool) (ops : list (sop M R)) : Prop :=
  match ops with
  | [] => True
  | SSet _ :: ops' => sdisciplined true ops'
  | SClear :: ops' => sdisciplined false ops'
  | SStart _ _ _ _ :: ops' => dirty = false /\ sdisciplined dirty ops'
  | _ :: ops' => sdisciplined dirty ops'
  end.

Definition is_resize {M R} (o : sop M R) : Prop := match o with SResize _ => True | _ => False end.

(** The uncached computation. *)
Definition uncached {M R E V} (compute : M -> str -> res E V) (direct : M -> R -> str -> option (res E V)) (m : M) (rnd : R) (s : str) : res E V :=
  match direct m rnd s with Some r => r | None => compute m s end.
