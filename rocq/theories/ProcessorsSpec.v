(** Specification vocabulary for post-processing: what an output looks like,
    position by position. *)
From Verif Require Import Base EncodingModel EncodingSpec ByteLevelModel ProcessorsModel.

(** A position of the output: the input sequence it comes from (none for an
    added token) and what the user sees there. *)
Notation cell := (prod (option nat) row) (only parsing).

(** The output is a list of segments: added tokens, or an input sequence, each
    with a type id. *)
Inductive segment :=
| Added (toks : list (list N * N)) (ty : N)
| Input (s : nat) (ty : N).

(** An added token has special mask 1, attention 1, no word and offsets (0,0). *)
Definition added_row (ty : N) (t : list N * N) : row := Row (snd t) ty (fst t) None (0, 0) 1 1.

(** A token of an input sequence keeps everything but its type id. *)
Definition typed (ty : N) (r : row) : row :=
  Row (r_id r) ty (r_token r) (r_word r) (r_off r) (r_special r) (r_attention r).

(** The layout described by a list of segments, [input s] being the tokens of
    input sequence [s]. *)
Definition lay_out (input : nat -> list row) (segs : list segment) : list cell :=
  flat_map (fun seg =>
              match seg with
              | Added toks ty => map (fun t => (None, added_row ty t)) toks
              | Input s ty => map (fun r => (Some s, typed ty r)) (input s)
              end) segs.

(** Encoding [x] shows exactly these cells: the rows are equal, and
    [token_to_sequence] gives the owner of each position (and nothing past the end). *)
Definition shows (x : encoding) (cs : list cell) : Prop :=
  rows x = map snd cs /\
  forall i, token_to_sequence x i = match nth_error cs i with Some (o, _) => o | None => None end.

(** [x] is [e] or one of its overflowing encodings, at any depth. *)
Inductive node (e : encoding) : encoding -> Prop :=
| node_self : node e e
| node_over o x : In o (overflowing e) -> node o x -> node e x.

Definition opt_node (p : option encoding) (x : option encoding) : Prop :=
  match p, x with
  | None, None => True
  | Some e, Some y => node e y
  | _, _ => False
  end.

(** Input number [s] of a (single or pair) input. *)
Definition inputs (a : list row) (b : option (list row)) (s : nat) : list row :=
  match s with
  | 0 => a
  | 1 => match b with Some b => b | None => [] end
  | _ => []
  end.

(** What tokenisation and truncation produce: no sequence ranges, no special
    token, every token attended, type ids equal to the number of the sequence;
    the same in the overflowing encodings, which are not nested. *)
Definition plain (s : nat) (x : encoding) : Prop :=
  same_lengths x /\ sequence_ranges x = [] /\
  Forall (fun r => r_type r = N.of_nat s /\ r_special r = 0%N /\ r_attention r = 1%N) (rows x).

Definition fresh (s : nat) (e : encoding) : Prop :=
  plain s e /\ Forall (fun o => plain s o /\ overflowing o = []) (overflowing e).

Definition opt_fresh (p : option encoding) : Prop :=
  match p with None => True | Some e => fresh 1 e end.

(** The tokens of an encoding once their offsets have been trimmed, if asked. *)
Definition seen (is_ws : N -> bool) (trim aps : bool) (x : encoding) : list row :=
  if trim then rows (process_offsets is_ws aps x) else rows x.

(** The tokens of a single input or a pair, [f] giving those of one encoding. *)
Definition both (f : encoding -> list row) (a : encoding) (b : option encoding) : nat -> list row :=
  inputs (f a) (option_map f b).

(** [out] is laid out as [segs] say; so is each of its overflowing encodings, for
    some choice of an overflowing encoding (or the encoding itself) of each input;
    and every such choice occurs. *)
Definition laid_out (f : encoding -> list row) (a : encoding) (b : option encoding)
           (segs : list segment) (out : encoding) : Prop :=
  shows out (lay_out (both f a b) segs) /\
  (forall x, node out x -> exists a' b', node a a' /\ opt_node b b' /\ shows x (lay_out (both f a' b') segs)) /\
  (forall a' b', node a a' -> opt_node b b' -> exists x, node out x /\ shows x (lay_out (both f a' b') segs)).

Definition is_some {A} (o : option A) : bool := match o with Some _ => true | None => false end.

(** The layouts of BERT and RoBERTa. *)
Definition bert_layout (sep cls : list N * N) (is_pair : bool) : list segment :=
  [Added [cls] 0; Input 0 0; Added [sep] 0] ++
  (if is_pair then [Input 1 1; Added [sep] 1] else []).

Definition roberta_layout (sep cls : list N * N) (is_pair : bool) : list segment :=
  [Added [cls] 0; Input 0 0; Added [sep] 0] ++
  (if is_pair then [Added [sep] 0; Input 1 0; Added [sep] 0] else []).

(** No special tokens: the inputs one after the other. *)
Definition bare_layout (is_pair : bool) : list segment :=
  Input 0 0 :: (if is_pair then [Input 1 1] else []).

(** A template, its special tokens being looked up by name ([None] when one is
    missing). *)
Fixpoint template_layout (m : list (list N * special)) (tpl : list piece) : option (list segment) :=
  match tpl with
  | [] => Some []
  | PSeq s ty :: rest =>
      match template_layout m rest with
      | Some segs => Some (Input (seq_index s) ty :: segs)
      | None => None
      end
  | PSpecial name ty :: rest =>
      match get_special name m, template_layout m rest with
      | Some sp, Some segs => Some (Added (combine (sp_tokens sp) (sp_ids sp)) ty :: segs)
      | _, _ => None
      end
  end.

(** The same without special tokens. *)
Definition template_layout_bare (tpl : list piece) : list segment :=
  flat_map (fun p => match p with PSeq s ty => [Input (seq_index s) ty] | PSpecial _ _ => [] end) tpl.

(** The input sequences a template uses, in order. *)
Definition used (tpl : list piece) : list nat :=
  flat_map (fun p => match p with PSeq s _ => [seq_index s] | PSpecial _ _ => [] end) tpl.

(** A template that uses each given sequence exactly once. *)
Definition uses_once (tpl : list piece) (is_pair : bool) : Prop :=
  if is_pair then used tpl = [0; 1] \/ used tpl = [1; 0] else used tpl = [0].

(** Special tokens have as many ids as tokens ([SpecialToken::new]). *)
Definition special_ok (m : list (list N * special)) : Prop :=
  forall name sp, In (name, sp) m -> length (sp_ids sp) = length (sp_tokens sp).

(** What identifies a token whatever happens to its offsets, type id and masks. *)
Definition token_key (r : row) : N * list N * option N := (r_id r, r_token r, r_word r).
Definition keys (e : encoding) : list (N * list N * option N) := map token_key (rows e).

(** [l] can be obtained from [l'] by deleting elements. *)
Inductive subseq {A} : list A -> list A -> Prop :=
| subseq_nil : subseq [] []
| subseq_keep a l l' : subseq l l' -> subseq (a :: l) (a :: l')
| subseq_skip a l l' : subseq l l' -> subseq l (a :: l').

(** Processors for which the announced count is meant to be right: BERT, RoBERTa
    and ByteLevel in any sequence; a template built by the builder and using each
    sequence once, before which such processors may come, and after which only
    processors that add nothing. *)
Inductive simple : processor -> Prop :=
| simple_bert sep cls : simple (PBert sep cls)
| simple_roberta sep cls t a : simple (PRoberta sep cls t a)
| simple_byte_level t a : simple (PByteLevel t a)
| simple_sequence ps : Forall simple ps -> simple (PSequence ps).

Inductive neutral : processor -> Prop :=
| neutral_byte_level t a : neutral (PByteLevel t a)
| neutral_sequence ps : Forall neutral ps -> neutral (PSequence ps).

Inductive accurate : processor -> Prop :=
| accurate_simple p : simple p -> accurate p
| accurate_template b t :
    build b = Ok t -> special_ok (tm_special t) ->
    uses_once (tm_single t) false -> uses_once (tm_pair t) true -> accurate (PTemplate t)
| accurate_sequence ps1 p ps2 :
    Forall simple ps1 -> accurate p -> Forall neutral ps2 ->
    accurate (PSequence (ps1 ++ p :: ps2)).

(** A segment of an overflowing encoding of a template's output: as written in
    the template, or with the type id of the input encoding. *)
Definition relaxed (seg seg' : segment) : Prop :=
  seg' = seg \/ exists s ty, seg = Input s ty /\ seg' = Input s (N.of_nat s).

(** The number of leading (trailing) characters satisfying [f]. *)
Inductive leads {A} (f : A -> Prop) : list A -> nat -> Prop :=
| leads_nil : leads f [] 0
| leads_stop x l : ~ f x -> leads f (x :: l) 0
| leads_go x l n : f x -> leads f l n -> leads f (x :: l) (S n).

(** A blank character in a byte-level token: the character 'G with dot' (U+0120)
    which stands for the space, or any whitespace. *)
Definition is_blank (is_ws : N -> bool) (c : N) : Prop := c = 288%N \/ is_ws c = true.

(** The encoding and, for a pair, the second one. *)
Definition given (a : encoding) (b : option encoding) : list encoding :=
  match b with Some b => [a; b] | None => [a] end.

Definition opt_parallel (b : option encoding) : Prop := match b with Some e => parallel e | None => True end.

(** [out] has [n] more tokens than [ins] together, and the tokens of [ins] (id,
    text and word) are all in [out], in order: sequence after sequence, or the
    second before the first. *)
Definition extends (ins : list encoding) (out : encoding) (n : nat) : Prop :=
  enc_len out = list_sum (map enc_len ins) + n /\
  (subseq (concat (map keys ins)) (keys out) \/ subseq (concat (map keys (rev ins))) (keys out)).
