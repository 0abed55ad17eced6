(** Specification of the training of a tokenizer. *)
From Verif Require Import Base StrBytes Utf8 EncodingModel NormModel PreTokModel AddedModel TokenizerModel BpeTrainModel BpeTrainSpec TokenizerTrainModel.

(** ** Lines *)
(** A text and its lines: each line goes up to a line feed, which belongs to it;
    what comes after the last line feed is a line if it is not empty. *)
Inductive text_lines : str -> list str -> Prop :=
| tl_end : text_lines [] []
| tl_last l : l <> [] -> ~ In 10%N l -> text_lines l [l]
| tl_line l rest ls : ~ In 10%N l -> text_lines rest ls -> text_lines (l ++ 10%N :: rest) ((l ++ [10%N]) :: ls).

Definition unicode_text (s : str) : Prop := Forall (fun c => is_scalar c = true) s.

(** A file that is read without errors and has this text. *)
Definition has_text {F} (content : F -> file_bytes) (f : F) (s : str) : Prop :=
  unicode_text s /\ content f = Some (encode_utf8 s, false).

(** A file that gives the lines [ls] and then an error: it cannot be opened, a
    line is not UTF-8, or reading breaks off. *)
Definition complete_line (l : str) : Prop := exists b, l = b ++ [10%N] /\ ~ In 10%N b /\ unicode_text b.
Inductive stops_after {F} (content : F -> file_bytes) (f : F) : list str -> Prop :=
| sa_closed : content f = None -> stops_after content f []
| sa_line ls l rest broken : content f = Some (encode_utf8 (concat ls) ++ l ++ 10%N :: rest, broken) ->
    Forall complete_line ls -> ~ In 10%N l -> from_utf8 (l ++ [10%N]) = None -> stops_after content f ls
| sa_last ls l : content f = Some (encode_utf8 (concat ls) ++ l, false) ->
    Forall complete_line ls -> ~ In 10%N l -> l <> [] -> from_utf8 l = None -> stops_after content f ls
| sa_broken ls l : content f = Some (encode_utf8 (concat ls) ++ l, true) ->
    Forall complete_line ls -> ~ In 10%N l -> stops_after content f ls.

(** ** Counts *)
(** The distinct words of some sequences, each with the number of times it comes. *)
Definition counted (words : str -> res unit (list str)) (seqs : list str) (wc : list (str * N)) : Prop :=
  NoDup (map fst wc) /\
  forall w n, In (w, n) wc <-> n = N.of_nat (occurrences words w seqs) /\ (0 < n)%N.

(** ** Encoding *)
(** The pre-tokenizer does not make tokens. *)
Definition only_cuts (t : tokenizer) : Prop :=
  forall s pt pt', extract_and_normalize (tz_space t) (tz_word t) (tz_added t) (tz_normalizer t) s = Ok pt ->
    Forall (fun sp => sp_tokens sp = None) (pt_splits pt) -> do_pre_tokenize t pt = Ok pt' ->
    Forall (fun sp => sp_tokens sp = None) (pt_splits pt').

(** [u] is somewhere in [s]. *)
Definition inside_text (u s : str) : Prop := exists a b, s = a ++ u ++ b.

(** ** What training leaves alone *)
Definition same_settings (t t' : tokenizer) : Prop :=
  tz_space t' = tz_space t /\ tz_word t' = tz_word t /\ tz_blank t' = tz_blank t /\ tz_normalizer t' = tz_normalizer t /\
  tz_pre_tokenizer t' = tz_pre_tokenizer t /\ tz_post t' = tz_post t /\ tz_truncation t' = tz_truncation t /\ tz_padding t' = tz_padding t.
