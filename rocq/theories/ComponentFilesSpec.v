(** What a user expects of saving and loading the components of a tokenizer. *)
From Coq Require Import String.
From Verif Require Import Base StrBytes AMap EncodingModel NormModel PatternModel DecodersModel ProcessorsModel NormalizersModel PreTokenizersModel ModelFilesModel ModelFilesSpec ComponentFilesModel.

(** The components that can be made: their patterns compile, their charts can be
    read, their numbers fit the types of the fields. *)
Definition fits (bits n : N) : Prop := (n < 2 ^ bits)%N.
Definition all_of {T} (P : T -> Prop) (l : list T) : Prop := fold_right (fun x Q => P x /\ Q) True l.

Fixpoint norm_valid (E : engines) (c : norm_config) : Prop :=
  match c with
  | CnSequence l => all_of (norm_valid E) l
  | CnPrecompiled m => en_chart E m <> None
  | CnReplace p _ => en_regex E p <> None
  | _ => True
  end.
Fixpoint pre_valid (E : engines) (c : pre_config) : Prop :=
  match c with
  | CpSequence l => all_of (pre_valid E) l
  | CpSplit p _ _ => en_regex E p <> None
  | CpFixed n => fits 64 (N.of_nat n)
  | _ => True
  end.
Fixpoint dec_valid (E : engines) (c : dec_config) : Prop :=
  match c with
  | CdSequence l => all_of (dec_valid E) l
  | CdReplace p _ => en_regex E p <> None
  | CdStrip _ a b => fits 64 (N.of_nat a) /\ fits 64 (N.of_nat b)
  | _ => True
  end.
Definition piece_valid (p : piece) : Prop := match p with PSeq _ t => fits 32 t | PSpecial _ t => fits 32 t end.
(** A template as its builder makes it: the numbers of added tokens are those of
    its pieces. *)
Definition template_valid (t : template_config) : Prop :=
  Forall piece_valid (tc_single t) /\ Forall piece_valid (tc_pair t) /\
  NoDup (map fst (tc_special t)) /\ Forall (fun e => Forall (fits 32) (st_ids (snd e))) (tc_special t) /\
  tc_added_single t = count_added (tc_single t) (Some (as_specials (tc_special t))) /\
  tc_added_pair t = count_added (tc_pair t) (Some (as_specials (tc_special t))).
Fixpoint proc_valid (c : proc_config) : Prop :=
  match c with
  | CqRoberta sep cls _ _ => fits 32 (snd sep) /\ fits 32 (snd cls)
  | CqBert sep cls => fits 32 (snd sep) /\ fits 32 (snd cls)
  | CqByteLevel _ _ _ => True
  | CqTemplate t => template_valid t
  | CqSequence l => all_of proc_valid l
  end.

(** The same post-processor: the special tokens of a template are a hash map. *)
Definition same_template (t t' : template_config) : Prop :=
  tc_single t' = tc_single t /\ tc_pair t' = tc_pair t /\ tc_added_single t' = tc_added_single t /\ tc_added_pair t' = tc_added_pair t /\
  same_map (tc_special t) (tc_special t').
Inductive same_proc : proc_config -> proc_config -> Prop :=
| sp_same c : same_proc c c
| sp_template t t' : same_template t t' -> same_proc (CqTemplate t) (CqTemplate t')
| sp_sequence l l' : Forall2 same_proc l l' -> same_proc (CqSequence l) (CqSequence l').

(** The kinds whose field "type" is optional. *)
Definition norm_untyped (c : norm_config) : Prop :=
  match c with CnBert _ _ _ _ | CnStrip _ _ | CnSequence _ | CnPrecompiled _ | CnReplace _ _ | CnPrepend _ => True | _ => False end.
Definition dec_untyped (c : dec_config) : Prop :=
  match c with CdBpe _ | CdWordPiece _ _ | CdCtc _ _ _ | CdReplace _ _ | CdStrip _ _ _ => True | _ => False end.
Definition proc_untyped (c : proc_config) : Prop :=
  match c with CqRoberta _ _ _ _ | CqBert _ _ | CqTemplate _ => True | _ => False end.

(** The order of a [BTreeMap] is some order of the entries. *)
Definition key_sort {V} (by_key : list (str * V) -> list (str * V)) : Prop := forall l, Permutation l (by_key l).

(** Some object inside has the field "type" with this name. *)
Inductive mentions {W} (name : string) : json W -> Prop :=
| me_here l : In (key "type", JStr (key name)) l -> mentions name (JObj l)
| me_field l k v : In (k, v) l -> mentions name v -> mentions name (JObj l)
| me_item l v : In v l -> mentions name v -> mentions name (JArr l).
