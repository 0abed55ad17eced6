(** What the pre-tokenizers promise (C53, C65), as relations between a section
    of text and the list of its pieces. *)
From Verif Require Import Base StrBytes Utf8 PatternModel PatternSpec EncodingModel NormModel NormSpec DecodersModel DecodersSpec PreTokenizersModel PreTokModel.

(** ** Runs *)
(** Characters of class [None] are dropped; the others form runs of one class, as
    long as possible: a run starting right after another has another class.
    [prev] is the class of the character just before, [None] at the start. *)
Inductive class_runs {K} (cls : char -> option K) : option K -> str -> list str -> Prop :=
| cr_end prev : class_runs cls prev [] []
| cr_drop prev c s ps : cls c = None -> class_runs cls None s ps -> class_runs cls prev (c :: s) ps
| cr_run prev k x s ps :
    x <> [] -> Forall (fun c => cls c = Some k) x -> prev <> Some k -> class_runs cls (Some k) s ps ->
    class_runs cls prev (x ++ s) (x :: ps).

Definition begins_with (p : char -> bool) (s : str) : Prop :=
  match s with [] => True | c :: _ => p c = true end.

(** Every marked character alone, the text between two of them in one piece. *)
Inductive marks_apart (p : char -> bool) : str -> list str -> Prop :=
| ma_end : marks_apart p [] []
| ma_mark c s ps : p c = true -> marks_apart p s ps -> marks_apart p (c :: s) ([c] :: ps)
| ma_text x s ps :
    x <> [] -> Forall (fun c => p c = false) x -> begins_with p s -> marks_apart p s ps ->
    marks_apart p (x ++ s) (x :: ps).

(** Every marked character ends a piece. *)
Inductive marks_last (p : char -> bool) : str -> list str -> Prop :=
| ml_end : marks_last p [] []
| ml_rest x : x <> [] -> Forall (fun c => p c = false) x -> marks_last p x [x]
| ml_mark x c s ps :
    Forall (fun c => p c = false) x -> p c = true -> marks_last p s ps ->
    marks_last p (x ++ c :: s) ((x ++ [c]) :: ps).

(** Every marked character starts a piece. *)
Inductive marks_first (p : char -> bool) : str -> list str -> Prop :=
| mf_end : marks_first p [] []
| mf_mark c x s ps :
    p c = true -> Forall (fun c => p c = false) x -> marks_first p s ps ->
    marks_first p (c :: x ++ s) ((c :: x) :: ps).
Inductive marks_next (p : char -> bool) : str -> list str -> Prop :=
| mn_mark s ps : marks_first p s ps -> marks_next p s ps
| mn_text x s ps : x <> [] -> Forall (fun c => p c = false) x -> marks_first p s ps -> marks_next p (x ++ s) (x :: ps).

(** What splitting on a kind of character does, by behaviour. *)
Definition by_behavior (p : char -> bool) (b : behavior) : str -> list str -> Prop :=
  match b with
  | Removed => class_runs (fun c => if p c then None else Some tt) None
  | Isolated => marks_apart p
  | Contiguous => class_runs (fun c => Some (p c)) None
  | MergedWithPrevious => marks_last p
  | MergedWithNext => marks_next p
  end.

(** ** Kinds of characters *)
Definition punctuation (T : tables) (c : char) : Prop :=
  In c [33; 34; 35; 36; 37; 38; 39; 40; 41; 42; 43; 44; 45; 46; 47; 58; 59; 60; 61; 62; 63; 64;
        91; 92; 93; 94; 95; 96; 123; 124; 125; 126]%N \/ is_punct T c = true.

(** The script of a character: Japanese ones count as Han; [ScAny] is that of
    the characters that go with any script. *)
Definition han_like (T : tables) (c : char) : Prop :=
  c = 0x30FC%N \/ c <> 32%N /\ (get_script T c = ScHan \/ get_script T c = ScHiragana \/ get_script T c = ScKatakana).
Inductive script_of (T : tables) (c : char) : script -> Prop :=
| so_han : han_like T c -> script_of T c ScHan
| so_space : c = 32%N -> script_of T c ScAny
| so_own : ~ han_like T c -> c <> 32%N -> script_of T c (get_script T c).

(** ** C53 *)
(** Pieces of [n] characters, the last one possibly shorter. *)
Inductive chunks_of (n : nat) : str -> list str -> Prop :=
| ck_end : chunks_of n [] []
| ck_last x : 0 < length x < n -> chunks_of n x [x]
| ck_full x s ps : length x = n -> chunks_of n s ps -> chunks_of n (x ++ s) (x :: ps).

(** Pieces that begin with a character of some script and go on with characters
    of this script or of any script, up to a character of another script. *)
Inductive script_pieces (T : tables) : option script -> str -> list str -> Prop :=
| sp_end prev : script_pieces T prev [] []
| sp_piece prev c k x s ps :
    script_of T c k -> k <> ScAny -> prev <> Some k ->
    Forall (fun d => script_of T d ScAny \/ script_of T d k) x -> script_pieces T (Some k) s ps ->
    script_pieces T prev (c :: x ++ s) ((c :: x) :: ps).
(** What comes before the first such character is dropped. *)
Definition script_runs (T : tables) (s : str) (ps : list str) : Prop :=
  exists lead rest, s = lead ++ rest /\ Forall (fun c => script_of T c ScAny) lead /\ script_pieces T None rest ps.

(** ** C65 *)
(** Engines return ordered non-overlapping matches; no fixed length of 0; the
    replacement of Metaspace is a character. *)
Fixpoint usable (p : pre_tokenizer) : Prop :=
  match p with
  | PtSequence l => (fix all (l : list pre_tokenizer) : Prop := match l with [] => True | p :: l' => usable p /\ all l' end) l
  | PtSplit find _ _ => forall s, engine_matches s 0 (find s)
  | PtMetaspace rep _ _ => is_scalar rep = true
  | PtFixed n => n <> 0
  | _ => True
  end.
Definition sane (T : tables) : Prop :=
  (forall s, engine_matches s 0 (word_re T s)) /\ (forall s, engine_matches s 0 (gpt_re T s)).

(** The segments of an engine: its matches and the text between them. *)
Definition engine_segs (find_iter : str -> list (nat * nat)) (s : str) (segs : list (str * bool)) : Prop :=
  covers_text (regex_find_matches find_iter s) segs s.
Definition flipped (segs : list (str * bool)) : list (str * bool) := map (fun sg => (fst sg, negb (snd sg))) segs.

(** The section with its spaces replaced, and the replacement put in front if
    [puts] and it is not there already. *)
Definition meta_text (rep : char) (puts : bool) (s : str) : str :=
  match marked rep s with
  | [] => []
  | c :: r => if puts && negb (N.eqb c rep) then rep :: c :: r else c :: r
  end.

(** The pieces each pre-tokenizer makes of a section.  [PrependScheme::First]
    depends on where the section comes from. *)
Fixpoint pieces_of (T : tables) (p : pre_tokenizer) (s : str) (ps : list str) : Prop :=
  match p with
  | PtBert => exists ws gs, by_behavior (is_ws T) Removed s ws /\
                Forall2 (fun w g => exists p, (forall c, p c = true <-> punctuation T c) /\ by_behavior p Isolated w g) ws gs /\ ps = concat gs
  | PtByteLevel aps use_regex =>
      exists parts, engine_pieces (gpt_re T) use_regex (with_prefix_space aps s) parts /\
        concat parts = with_prefix_space aps s /\ ps = map byte_image (nonempty_parts parts)
  | PtDelimiter c => by_behavior (fun c' => N.eqb c' c) Removed s ps
  | PtMetaspace rep scheme do_split =>
      exists puts, (scheme = SAlways -> puts = true) /\ (scheme = SNever -> puts = false) /\
        (if do_split then by_behavior (fun c => N.eqb c rep) MergedWithNext (meta_text rep puts s) ps
         else ps = nonempty_parts [meta_text rep puts s])
  | PtWhitespace => exists segs, engine_segs (word_re T) s segs /\ ps = nonempty_parts (map fst (filter snd segs))
  | PtSequence l =>
      (fix go (l : list pre_tokenizer) (s : str) (ps : list str) : Prop :=
         match l with
         | [] => ps = [s]
         | p :: l' => exists ms gs, pieces_of T p s ms /\ Forall2 (go l') ms gs /\ ps = concat gs
         end) l s ps
  | PtSplit find b invert =>
      exists segs, engine_segs find s segs /\ ps = nonempty_parts (spec_split b (if invert then flipped segs else segs))
  | PtPunctuation b => exists p, (forall c, p c = true <-> punctuation T c) /\ by_behavior p b s ps
  | PtWhitespaceSplit => by_behavior (is_ws T) Removed s ps
  | PtDigits individual => by_behavior (is_numeric T) (if individual then Isolated else Contiguous) s ps
  | PtScripts => script_runs T s ps
  | PtFixed n => chunks_of n s ps
  end.

(** From one split to the splits it became: tokenised ones are left alone. *)
Definition piece_group (T : tables) (p : pre_tokenizer) (sp : split) (g : list split) : Prop :=
  match sp_tokens sp with
  | Some _ => g = [sp]
  | None => Forall (fun sp' => sp_tokens sp' = None) g /\
            pieces_of T p (n_normalized (sp_norm sp)) (map (fun sp' => n_normalized (sp_norm sp')) g)
  end.

(** The matches of [\w+|[^\w\s]+]: the longest runs of word characters or of
    characters neither word nor space.  [cur] is the run being read. *)
Definition re_class (word space : char -> bool) (c : char) : option bool :=
  if word c then Some true else if space c then None else Some false.
Fixpoint word_matches (word space : char -> bool) (cur : option (nat * bool)) (pos : nat) (s : str) : list (nat * nat) :=
  let close := match cur with Some (start, _) => [(start, pos)] | None => [] end in
  match s with
  | [] => close
  | c :: s' =>
      let pos' := pos + len_utf8 c in
      match re_class word space c, cur with
      | None, _ => close ++ word_matches word space None pos' s'
      | Some k, Some (start, k') =>
          if Bool.eqb k k' then word_matches word space (Some (start, k')) pos' s'
          else close ++ word_matches word space (Some (pos, k)) pos' s'
      | Some k, None => word_matches word space (Some (pos, k)) pos' s'
      end
  end.
