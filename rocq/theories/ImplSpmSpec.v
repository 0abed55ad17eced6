(** Specification of the ready-made SentencePiece tokenizers (C99). *)
From Coq Require Import String.
From Verif Require Import Base StrBytes AMap AddedModel BpeWordSpec PatternModel PatternSpec NormalizersModel NormalizersSpec DecodersSpec PreTokenizersModel PreTokenizersSpec
  TokenizerModel ModelFilesModel ComponentFilesModel TokenizerFilesModel ImplBertModel ImplSpmModel.

(** A text is shown without the space put in front. *)
Definition shown_text (add_prefix_space : bool) (n : str) : str := if add_prefix_space then drop_one_space n else n.

(** What the model sees of the normalised text [n]: the mark for every space, and in
    front unless there is a space already. *)
Definition seen (rep : char) (add_prefix_space : bool) (n : str) : str := DecodersSpec.marked rep (with_space add_prefix_space n).

(** The normalizers: NFKC; blanks and control characters cleaned, NFKC, runs of spaces
    made one space; the chart of a SentencePiece file, runs of spaces made one space. *)
Section normalizers.
  Context {W : Type} (P : platform W).
  Definition find_runs : str -> list (nat * nat) := regex_of (pf_engines P) (PaRegex (key " {2,}")).
  Definition bpe_normal : normalizer := NNFKC.
  Definition uni_normal : normalizer := NSequence [NNmt; NNFKC; NReplace find_runs [32%N]].
  Definition file_normal (chart : option str) : normalizer :=
    NSequence (match chart with Some c => [NPrecompiled (chart_of (pf_engines P) c) (en_graphemes (pf_engines P))] | None => [] end ++ [NReplace find_runs [32%N]]).

  (** The Unicode tables and the queue of BPE are as usual. *)
  Definition ordinary : Prop := tables_ok (pf_norm P) /\ sane (pf_pre P) /\ heap_ok (pf_pop P).
  (** The engine of " {2,}" gives matches in order, none of them empty at the start. *)
  Definition finds_runs : Prop :=
    forall s, engine_matches s 0 (find_runs s) /\ match find_runs s with (0, 0) :: _ => s = [] | _ => True end.
  (** The graphemes of a text are parts of it; the chart gives texts. *)
  Definition chart_ok (chart : option str) : Prop :=
    match chart with Some c => NormalizersSpec.usable (NPrecompiled (chart_of (pf_engines P) c) (en_graphemes (pf_engines P))) | None => True end.
End normalizers.

(** Tokens searched in the text as given that take no blanks. *)
Definition verbatim (t : added_token) : Prop := at_normalized t = false /\ at_lstrip t = false /\ at_rstrip t = false.
(** A special token does not show up in the normalised text [n]. *)
Definition unwritten (rep : char) (n : str) (t : added_token) : Prop :=
  at_special t = true -> at_content t <> [] -> ~ In rep (at_content t) /\ ~ occurs (at_content t) n.
(** [x] is in none of [words] and is not a character of the alphabet. *)
Definition own_token (words : list str) (initial : list char) (x : str) : Prop :=
  (forall w, In w words -> ~ occurs x w) /\ forall c, In c initial -> x <> [c].
