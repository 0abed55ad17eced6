(** Model of the caches of BPE and Unigram under any number of threads.
    Sources: /repo/tokenizers/src/models/bpe/model.rs:24-91, 347-368, 438-452,
    544-573, 600-611 (thread-local cache of BPE) and
    /repo/tokenizers/src/utils/cache.rs (shared cache of Unigram).
    Counters do not wrap around. *)
From Verif Require Import Base StrBytes AMap EncodingModel BpeWordModel BpeModel.

(** [MAX_LENGTH], cache.rs:10. *)
Definition max_length : nat := 256.

(** ** The thread-local cache of BPE *)

(** A model with its cache descriptor: generation id and capacity
    ([Option<BpeCache>]), model.rs:36-40, 305. *)
Record instance := mkInst { i_model : bpe; i_cache : option (N * nat) }.

(** A call of [tokenize] that has loaded the id of its cache and not yet used the map. *)
Record call := mkCall { f_inst : nat; f_seq : str; f_draws : nat -> bool; f_id : N; f_cap : nat }.

(** [NEXT_CACHE_ID], the live models, [BPE_LOCAL_CACHE] of each thread (by
    thread, then by id, then by sequence) and the calls in progress by thread. *)
Record world := mkWorld {
  g_next : N; g_insts : list instance;
  g_local : list (nat * list (N * list (str * word)));
  g_calls : list (nat * call) }.

Definition world0 : world := mkWorld 0 [] [] [].

Inductive op :=
| OBuild (m : bpe) (capacity : nat)       (* BpeBuilder::build *)
| OClone (k : nat)                        (* BPE::clone *)
| OClear (k : nat)                        (* BPE::clear_cache *)
| OResize (k : nat) (capacity : nat)      (* BPE::resize_cache *)
| OSetPlain (k : nat) (d : dropout_value) (ignore : bool)  (* assign dropout, ignore_merges *)
| OSet (k : nat) (m : bpe)                (* assign any field, or train *)
| OStart (t : nat) (k : nat) (s : str) (draws : nat -> bool)  (* tokenize, up to the load of the id *)
| OFinish (t : nat).                      (* the rest of the call *)

(** The result of a call: model, sequence, draws, tokens. *)
Record outcome := mkOut { o_inst : nat; o_seq : str; o_draws : nat -> bool; o_tokens : res bpe_error (list token) }.

Definition set_inst (st : world) (k : nat) (i : instance) : world :=
  mkWorld (g_next st) (upd (g_insts st) k (fun _ => i)) (g_local st) (g_calls st).

(** No call in progress on a model: what [&mut self] ensures. *)
Definition no_call_on (st : world) (k : nat) : bool := forallb (fun x => negb (f_inst (snd x) =? k)) (g_calls st).

Fixpoint drop_key {A} (t : nat) (l : list (nat * A)) : list (nat * A) :=
  match l with
  | [] => []
  | (t', a) :: l' => if t =? t' then drop_key t l' else (t', a) :: drop_key t l'
  end.

(** The map of a thread for an id ([entry(cache_id).or_default()], model.rs:561). *)
Definition local_map (st : world) (t : nat) (id : N) : list (str * word) :=
  match aget Nat.eqb t (g_local st) with
  | Some by_bpe => match aget N.eqb id by_bpe with Some l => l | None => [] end
  | None => []
  end.

Definition set_local (st : world) (t : nat) (id : N) (l : list (str * word)) : list (nat * list (N * list (str * word))) :=
  let by_bpe := match aget Nat.eqb t (g_local st) with Some b => b | None => [] end in
  aset Nat.eqb t (aset N.eqb id l by_bpe) (g_local st).

Definition plain_dropout (m : bpe) : bool := match b_dropout m with DNone | DZero => true | _ => false end.

Definition with_plain (m : bpe) (d : dropout_value) (ignore : bool) : bpe :=
  mkBpe (b_vocab m) (b_vocab_r m) (b_merges m) d (b_unk m) (b_prefix m) (b_suffix m) (b_fuse m) (b_fallback m) ignore.

Section steps.
  Context (pop : list merge -> option (merge * list merge)).

  (** One step; [None] when the operation is not possible there: no such model,
      a thread already in a call, or [&mut self] while a call is in progress. *)
  Definition step (st : world) (o : op) : option (world * option outcome) :=
    match o with
    | OBuild m capacity =>
        (* model.rs:240-244, 46-52 *)
        match capacity with
        | O => Some (mkWorld (g_next st) (g_insts st ++ [mkInst m None]) (g_local st) (g_calls st), None)
        | _ => Some (mkWorld (g_next st + 1) (g_insts st ++ [mkInst m (Some (g_next st, capacity))]) (g_local st) (g_calls st), None)
        end
    | OClone k =>
        match nth_error (g_insts st) k with
        | Some (mkInst m (Some (_, capacity))) =>
            Some (mkWorld (g_next st + 1) (g_insts st ++ [mkInst m (Some (g_next st, capacity))]) (g_local st) (g_calls st), None)
        | Some (mkInst m None) =>
            Some (mkWorld (g_next st) (g_insts st ++ [mkInst m None]) (g_local st) (g_calls st), None)
        | None => None
        end
    | OClear k =>
        match nth_error (g_insts st) k with
        | Some (mkInst m (Some (_, capacity))) =>
            Some (set_inst (mkWorld (g_next st + 1) (g_insts st) (g_local st) (g_calls st)) k (mkInst m (Some (g_next st, capacity))), None)
        | Some (mkInst m None) => Some (st, None)
        | None => None
        end
    | OResize k capacity =>
        if no_call_on st k then
          match nth_error (g_insts st) k with
          | Some (mkInst m (Some (id, _))) => Some (set_inst st k (mkInst m (Some (id, capacity))), None)
          | Some (mkInst m None) => Some (st, None)
          | None => None
          end
        else None
    | OSetPlain k d ignore =>
        if no_call_on st k then
          match nth_error (g_insts st) k with
          | Some (mkInst m c) => Some (set_inst st k (mkInst (with_plain m d ignore) c), None)
          | None => None
          end
        else None
    | OSet k m' =>
        if no_call_on st k then
          match nth_error (g_insts st) k with
          | Some (mkInst m c) => Some (set_inst st k (mkInst m' c), None)
          | None => None
          end
        else None
    | OStart t k s draws =>
        match aget Nat.eqb t (g_calls st), nth_error (g_insts st) k with
        | None, Some (mkInst m c) =>
            let return_ r := Some (st, Some (mkOut k s draws r)) in
            if is_nil s then return_ (Ok [])
            else if plain_dropout m then
              match (if b_ignore_merges m then b_id m s else None), c with
              | Some id, _ => return_ (Ok [mkTok id s (0, blen s)])
              | None, None => return_ (let! w := merge_word pop m no_draw s in word_to_tokens m w)
              | None, Some (id, capacity) =>
                  Some (mkWorld (g_next st) (g_insts st) (g_local st) ((t, mkCall k s draws id capacity) :: g_calls st), None)
              end
            else return_ (let! w := merge_word pop m draws s in word_to_tokens m w)
        | _, _ => None
        end
    | OFinish t =>
        match aget Nat.eqb t (g_calls st) with
        | None => None
        | Some f =>
            match nth_error (g_insts st) (f_inst f) with
            | None => None
            | Some (mkInst m _) =>
                let calls := drop_key t (g_calls st) in
                let map := local_map st t (f_id f) in
                let return_ local r := Some (mkWorld (g_next st) (g_insts st) local calls, Some (mkOut (f_inst f) (f_seq f) (f_draws f) r)) in
                match aget str_eqb (f_seq f) map with
                | Some hit => return_ (set_local st t (f_id f) map) (word_to_tokens m hit)
                | None =>
                    match merge_word pop m no_draw (f_seq f) with
                    | Ok w =>
                        let map' := if (blen (f_seq f) <? max_length) && (length map <? f_cap f)
                                    then aset str_eqb (f_seq f) w map else map in
                        return_ (set_local st t (f_id f) map') (word_to_tokens m w)
                    | Err e => return_ (set_local st t (f_id f) map) (Err e)
                    | Panic => return_ (set_local st t (f_id f) map) Panic
                    end
                end
            end
        end
    end.

  Fixpoint run (st : world) (ops : list op) : option (world * list outcome) :=
    match ops with
    | [] => Some (st, [])
    | o :: ops' =>
        match step st o with
        | None => None
        | Some (st', out) =>
            match run st' ops' with
            | None => None
            | Some (st'', outs) => Some (st'', match out with Some x => x :: outs | None => outs end)
            end
        end
    end.
End steps.

(** ** The shared cache of Unigram *)
Section shared.
  Context {M R E V : Type}.
  (** The computation whose result is cached, and the calls that do not use the
      cache ([sentence.is_empty()], sampling): unigram/model.rs:230-254. *)
  Context (compute : M -> str -> res E V) (direct : M -> R -> str -> option (res E V)).

  (** A call that computed its result and will now try to store it, before and
      after the capacity check of [set_values], cache.rs:93-115. *)
  Inductive phase := PComputed (s : str) (rnd : R) (v : V) | PChecked (s : str) (rnd : R) (v : V).

  Record shared := mkShared { c_model : M; c_map : list (str * V); c_cap : nat; c_calls : list (nat * phase) }.

  Inductive sop :=
  | SStart (t : nat) (s : str) (rnd : R) (locked : bool)  (* get: try_read fails if locked *)
  | SCheck (t : nat) (locked : bool)                      (* set_values: the read *)
  | SWrite (t : nat) (locked : bool)                      (* set_values: the write *)
  | SClear                                                (* clear_cache(&mut self) *)
  | SResize (capacity : nat)                              (* resize_cache(&mut self) *)
  | SSet (m : M).                                         (* assign a field *)

  Record soutcome := mkSOut { so_seq : str; so_rnd : R; so_res : res E V }.

  Definition put_call (st : shared) (t : nat) (p : phase) : shared :=
    mkShared (c_model st) (c_map st) (c_cap st) ((t, p) :: drop_key t (c_calls st)).
  Definition end_call (st : shared) (t : nat) : shared :=
    mkShared (c_model st) (c_map st) (c_cap st) (drop_key t (c_calls st)).

  Definition sstep (st : shared) (o : sop) : option (shared * option soutcome) :=
    match o with
    | SStart t s rnd locked =>
        match aget Nat.eqb t (c_calls st) with
        | Some _ => None
        | None =>
            match direct (c_model st) rnd s with
            | Some r => Some (st, Some (mkSOut s rnd r))
            | None =>
                match (if locked then None else aget str_eqb s (c_map st)) with
                | Some v => Some (st, Some (mkSOut s rnd (Ok v)))
                | None =>
                    match compute (c_model st) s with
                    | Ok v => if blen s <? max_length then Some (put_call st t (PComputed s rnd v), None)
                              else Some (st, Some (mkSOut s rnd (Ok v)))
                    | Err e => Some (st, Some (mkSOut s rnd (Err e)))
                    | Panic => Some (st, Some (mkSOut s rnd Panic))
                    end
                end
            end
        end
    | SCheck t locked =>
        match aget Nat.eqb t (c_calls st) with
        | Some (PComputed s rnd v) =>
            if locked then Some (end_call st t, Some (mkSOut s rnd (Ok v)))
            else if c_cap st <=? length (c_map st) then Some (end_call st t, Some (mkSOut s rnd (Ok v)))
            else Some (put_call st t (PChecked s rnd v), None)
        | _ => None
        end
    | SWrite t locked =>
        match aget Nat.eqb t (c_calls st) with
        | Some (PChecked s rnd v) =>
            if locked then Some (end_call st t, Some (mkSOut s rnd (Ok v)))
            else if c_cap st <? length (c_map st) then Some (end_call st t, Some (mkSOut s rnd Panic)) (* [capacity - len] *)
            else
              let free := c_cap st - length (c_map st) in
              let map' := fold_left (fun m e => aset str_eqb (fst e) (snd e) m) (firstn free [(s, v)]) (c_map st) in
              Some (mkShared (c_model st) map' (c_cap st) (drop_key t (c_calls st)), Some (mkSOut s rnd (Ok v)))
        | _ => None
        end
    | SClear => if is_nil (c_calls st) then Some (mkShared (c_model st) [] (c_cap st) [], None) else None
    | SResize capacity =>
        (* [shrink_to] only gives memory back *)
        if is_nil (c_calls st) then Some (mkShared (c_model st) (c_map st) capacity [], None) else None
    | SSet m => if is_nil (c_calls st) then Some (mkShared m (c_map st) (c_cap st) [], None) else None
    end.

  Fixpoint srun (st : shared) (ops : list sop) : option (shared * list soutcome) :=
    match ops with
    | [] => Some (st, [])
    | o :: ops' =>
        match sstep st o with
        | None => None
        | Some (st', out) =>
            match srun st' ops' with
            | None => None
            | Some (st'', outs) => Some (st'', match out with Some x => x :: outs | None => outs end)
            end
        end
    end.

  Definition shared0 (m : M) (capacity : nat) : shared := mkShared m [] capacity [].
End shared.
Arguments phase R V : clear implicits.
Arguments shared M R V : clear implicits.
Arguments sop M R : clear implicits.
Arguments soutcome R E V : clear implicits.
