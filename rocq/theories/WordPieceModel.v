(** Model of /repo/tokenizers/src/models/wordpiece/mod.rs and
    /repo/tokenizers/src/models/wordlevel/mod.rs: building and tokenising.
    Files are not modelled. *)
From Verif Require Import Base StrBytes AMap EncodingModel BpeModel.

(** [Error::MissingUnkToken], both files. *)
Inductive wp_error := EMissingUnk.

(** [WordPiece], wordpiece/mod.rs:119-126; [build], 94-114, is [reverse_vocab]
    for the reverse map. *)
Record wordpiece := mkWP { w_vocab : list (str * N); w_unk : str; w_prefix : str; w_max : nat }.

(** The single unknown token, wordpiece/mod.rs:226-235 and 271-278. *)
Definition wp_unknown (m : wordpiece) (s : str) : res wp_error (list token) :=
  match aget str_eqb (w_unk m) (w_vocab m) with
  | Some id => Ok [mkTok id (w_unk m) (0, blen s)]
  | None => Err EMissingUnk
  end.

(** The inner loop, wordpiece/mod.rs:245-260, with [fuel] iterations. *)
Fixpoint wp_match (fuel : nat) (m : wordpiece) (s : str) (start stop : nat) : res wp_error (option (token * nat)) :=
  match fuel with
  | O => Panic
  | S fuel' =>
      if start <? stop then
        let! sub := of_option (str_get s start stop) in
        let sub := if 0 <? start then w_prefix m ++ sub else sub in
        match aget str_eqb sub (w_vocab m) with
        | Some id => Ok (Some (mkTok id sub (start, stop), stop))
        | None =>
            let back := match rev sub with c :: _ => len_utf8 c | [] => 1 end in
            if stop <? back then Panic else wp_match fuel' m s start (stop - back)
        end
      else Ok None
  end.

(** The outer loop, wordpiece/mod.rs:241-268; [None]: is_bad. *)
Fixpoint wp_loop (fuel : nat) (m : wordpiece) (s : str) (start : nat) (acc : list token) : res wp_error (option (list token)) :=
  match fuel with
  | O => Panic
  | S fuel' =>
      if start <? blen s then
        let! cur := wp_match (S (blen s)) m s start (blen s) in
        match cur with
        | None => Ok None
        | Some (t, stop) => wp_loop fuel' m s stop (acc ++ [t])
        end
      else Ok (Some acc)
  end.

(** [WordPiece::tokenize], wordpiece/mod.rs:224-283. *)
Definition wp_tokenize (m : wordpiece) (s : str) : res wp_error (list token) :=
  if w_max m <? length s then wp_unknown m s
  else
    let! r := wp_loop (S (blen s)) m s 0 [] in
    match r with
    | None => wp_unknown m s
    | Some toks => Ok toks
    end.

(** [WordPiece::token_to_id] and [id_to_token], wordpiece/mod.rs:285-291. *)
Definition wp_token_to_id (m : wordpiece) (t : str) : option N := aget str_eqb t (w_vocab m).
Definition wp_id_to_token (m : wordpiece) (i : N) : option str := aget N.eqb i (reverse_vocab (w_vocab m)).

(** [WordLevel], wordlevel/mod.rs:97-102. *)
Record wordlevel := mkWL { l_vocab : list (str * N); l_unk : str }.

(** [WordLevel::tokenize], wordlevel/mod.rs:162-178. *)
Definition wl_tokenize (m : wordlevel) (s : str) : res wp_error (list token) :=
  match aget str_eqb s (l_vocab m) with
  | Some id => Ok [mkTok id s (0, blen s)]
  | None =>
      match aget str_eqb (l_unk m) (l_vocab m) with
      | Some id => Ok [mkTok id (l_unk m) (0, blen s)]
      | None => Err EMissingUnk
      end
  end.

(** [WordLevel::token_to_id] and [id_to_token], wordlevel/mod.rs:180-186, 78-94. *)
Definition wl_token_to_id (m : wordlevel) (t : str) : option N := aget str_eqb t (l_vocab m).
Definition wl_id_to_token (m : wordlevel) (i : N) : option str := aget N.eqb i (reverse_vocab (l_vocab m)).
