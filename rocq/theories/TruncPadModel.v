(** Model of pair truncation and batch padding.
    Sources: /repo/tokenizers/src/utils/truncation.rs, utils/padding.rs. *)
From Verif Require Import Base EncodingModel.

(** [TruncationError], truncation.rs:42-50. *)
Inductive trunc_error := SecondSequenceNotProvided | SequenceTooShort.

(** [TruncationStrategy], truncation.rs:52-58. *)
Inductive trunc_strategy := LongestFirst | OnlyFirst | OnlySecond.

(** [TruncationParams], truncation.rs:22-29. *)
Record trunc_params := mkTruncParams {
  tp_direction : direction;
  tp_max_length : nat;
  tp_strategy : trunc_strategy;
  tp_stride : nat
}.

(** [Encoding::truncate] returns unit in Rust (it can only panic), so its
    never-produced error case is mapped to a panic. *)
Definition lift_res {E A} (r : res unit A) : res E A :=
  match r with Ok a => Ok a | Err _ => Panic | Panic => Panic end.

Definition opt_len (p : option encoding) : nat :=
  match p with Some e => enc_len e | None => 0 end.

(** The length computation of [LongestFirst], truncation.rs:110-137. *)
Definition longest_first_lengths (l1 l2 max_length : nat) : nat * nat :=
  let swap := l2 <? l1 in
  let n1 := if swap then l2 else l1 in
  let n2 := if max_length <? n1 then n1 else Nat.max n1 (max_length - n1) in
  let '(m1, m2) := if max_length <? n1 + n2
                   then (max_length / 2, max_length / 2 + max_length mod 2)
                   else (n1, n2) in
  if swap then (m2, m1) else (m1, m2).

(** [truncate_encodings], truncation.rs:70-162. *)
Definition truncate_encodings (e : encoding) (pair : option encoding) (p : trunc_params)
  : res trunc_error (encoding * option encoding) :=
  let tr x n := lift_res (truncate x n (tp_stride p) (tp_direction p)) in
  let max_length := tp_max_length p in
  if max_length =? 0 then
    let! e' := tr e 0 in
    match pair with
    | None => Ok (e', None)
    | Some o => let! o' := tr o 0 in Ok (e', Some o')
    end
  else
    let total := enc_len e + opt_len pair in
    if total <=? max_length then Ok (e, pair)
    else
      let to_remove := total - max_length in
      match tp_strategy p with
      | LongestFirst =>
          match pair with
          | Some o =>
              let '(n1, n2) := longest_first_lengths (enc_len e) (enc_len o) max_length in
              let! e' := tr e n1 in
              let! o' := tr o n2 in
              Ok (e', Some o')
          | None => let! e' := tr e (total - to_remove) in Ok (e', None)
          end
      | OnlyFirst =>
          if to_remove <? enc_len e then
            let! e' := tr e (enc_len e - to_remove) in Ok (e', pair)
          else Err SequenceTooShort
      | OnlySecond =>
          match pair with
          | None => Err SecondSequenceNotProvided
          | Some o =>
              if to_remove <? enc_len o then
                let! o' := tr o (enc_len o - to_remove) in Ok (e, Some o')
              else Err SequenceTooShort
          end
      end.

(** [PaddingStrategy] and [PaddingParams], padding.rs:21-48. *)
Inductive pad_strategy := BatchLongest | Fixed (n : nat).

Record pad_params := mkPadParams {
  pp_strategy : pad_strategy;
  pp_direction : direction;
  pp_multiple : option nat;
  pp_id : N;
  pp_type_id : N;
  pp_token : str
}.

(** padding.rs:55-68. *)
Definition pad_target (lens : list nat) (p : pad_params) : nat :=
  let n := match pp_strategy p with
           | Fixed n => n
           | BatchLongest => fold_right Nat.max 0 lens
           end in
  match pp_multiple p with
  | Some m => if (0 <? m) && (0 <? n mod m) then n + (m - n mod m) else n
  | None => n
  end.

(** [pad_encodings], padding.rs:50-81; the (possibly parallel) iteration is a map. *)
Definition pad_encodings (l : list encoding) (p : pad_params) : list encoding :=
  match l with
  | [] => []
  | _ => map (pad (pad_target (map enc_len l) p) (pp_id p) (pp_type_id p) (pp_token p)
                  (pp_direction p)) l
  end.
