(** Model of streaming decoding.
    Source: /repo/tokenizers/src/tokenizer/mod.rs:1059-1161. *)
From Verif Require Import Base StrBytes Utf8 PatternModel.

(** [DecodeStreamError], mod.rs:1083-1091, next to the error of the decoder. *)
Inductive stream_error (E : Type) := SDecode (e : E) | SInvalidPrefix.
Arguments SDecode {E} e.
Arguments SInvalidPrefix {E}.

(** [DecodeStream], mod.rs:1059-1081. *)
Record stream := mkStream { s_ids : list N; s_prefix : str; s_index : nat }.
(** [DecodeStream::new], mod.rs:1101-1109. *)
Definition stream_new : stream := mkStream [] [] 0.

(** [str::ends_with('�')]. *)
Definition ends_replacement (s : str) : bool :=
  match rev s with c :: _ => N.eqb c replacement_char | [] => false end.

Definition stream_res {E} (r : res E str) : res (stream_error E) str :=
  match r with Ok s => Ok s | Err e => Err (SDecode e) | Panic => Panic end.

(** The first part of [step_decode_stream], mod.rs:1139-1145. *)
Definition refresh_prefix {E} (decode : list N -> res E str) (st : stream) : res (stream_error E) stream :=
  if is_nil (s_prefix st) && negb (is_nil (s_ids st)) then
    let! new_prefix := stream_res (decode (s_ids st)) in
    Ok (if ends_replacement new_prefix then st else mkStream (s_ids st) new_prefix (length (s_ids st)))
  else Ok st.

(** [step_decode_stream], mod.rs:1122-1167.  The state after an error is the one
    the mutable references are left with; after a panic it does not matter. *)
Definition step_decode_stream {E} (decode : list N -> res E str) (st : stream) (token_ids : list N)
  : stream * res (stream_error E) (option str) :=
  match refresh_prefix decode st with
  | Panic => (st, Panic)
  | Err e => (st, Err e)
  | Ok st =>
      let ids := s_ids st ++ token_ids in
      let st := mkStream ids (s_prefix st) (s_index st) in
      match stream_res (decode ids) with
      | Panic => (st, Panic)
      | Err e => (st, Err e)
      | Ok string =>
          if (blen (s_prefix st) <? blen string) && negb (ends_replacement string) then
            if negb (is_prefix (s_prefix st) string) then
              if is_nil ids then (st, Panic) else (st, Err SInvalidPrefix)
            else if s_index st <=? length ids then
              let new_text := skipn (length (s_prefix st)) string in
              let new_prefix_index := length ids - s_index st in
              let ids := skipn (s_index st) ids in
              match stream_res (decode ids) with
              | Panic => (mkStream ids (s_prefix st) (s_index st), Panic)
              | Err e => (mkStream ids (s_prefix st) (s_index st), Err e)
              | Ok prefix => (mkStream ids prefix new_prefix_index, Ok (Some new_text))
              end
            else (st, Panic)
          else (st, Ok None)
      end
  end.

(** A stream fed with batches of ids; [DecodeStream::step], mod.rs:1112-1121,
    feeds one id.  Not a function of the repository: a history of calls. *)
Fixpoint feed {E} (decode : list N -> res E str) (st : stream) (batches : list (list N))
  : list (res (stream_error E) (option str)) :=
  match batches with
  | [] => []
  | b :: rest => let (st', out) := step_decode_stream decode st b in out :: feed decode st' rest
  end.
