(** Specification vocabulary for encoding: schedules, effective lengths, what two
    token tables share. *)
From Verif Require Import Base StrBytes EncodingModel EncodingSpec TruncPadModel PreTokModel PreTokSpec ProcessorsModel ProcessorsSpec TokenizerModel.

(** An order in which the items of a batch may be run: no item twice, and every
    item unless one of those that were run failed. *)
Definition valid_schedule {I E A} (f : I -> res E A) (inputs : list I) (schedule : list nat) : Prop :=
  NoDup schedule /\ (forall i, In i schedule -> i < length inputs) /\
  ((forall i, i < length inputs -> In i schedule) \/
   exists i x, In i schedule /\ nth_error inputs i = Some x /\ forall a, f x <> Ok a).

(** Padding of a batch, if asked for. *)
Definition padded_batch (p : option pad_params) (es : list encoding) : list encoding :=
  match p with Some p => pad_encodings es p | None => es end.

(** The post-processor announces how many tokens it adds (or there is none). *)
Definition post_ok (t : tokenizer) : Prop :=
  match tz_post t with Some p => accurate p | None => True end.

Definition is_dual (i : encode_input) : bool := match i with Dual _ _ => true | Single _ => false end.

(** How many tokens are left to the input itself. *)
Definition room (t : tokenizer) (p : trunc_params) (is_pair add : bool) : nat :=
  tp_max_length p - (if add then n_added t is_pair else 0).

(** The encodings of the input sequences, before any post-processing. *)
Definition sequences (t : tokenizer) (ot : offset_type) (input : encode_input) : res unit (encoding * option encoding) :=
  match input with
  | Single a => let! e := encode_single t a 0 ot in Ok (e, None)
  | Dual a b => let! e := encode_single t a 0 ot in let! o := encode_single t b 1 ot in Ok (e, Some o)
  end.

(** The same tokens for input [a], whose words may be numbered differently when
    text is cut from the left. *)
Definition same_tokens (d : direction) (a : input_sequence) (x y : encoding) : Prop :=
  map no_word (rows x) = map no_word (rows y) /\
  ((d = DRight \/ exists ws, a = PreTokenized ws) -> rows x = rows y).
