(** Specification of the normalizers (C60, C68): what each of them does to a
    text whose characters carry their range in the original text. *)
From Coq Require Import ZArith.
From Verif Require Import Base StrBytes Utf8 NormModel NormSpec PatternModel PatternSpec ByteLevelModel DecodersSpec
  NormalizersModel.

Definition ranged : Type := list (char * (nat * nat)).

(** Every character in place: kept or dropped, rewritten, or expanded; the
    results carry the range of the character they come from. *)
Definition keeping (keep : char -> bool) (cal : ranged) : ranged := filter (fun ca => keep (fst ca)) cal.
Definition rewriting (f : char -> char) (cal : ranged) : ranged := map (fun ca => (f (fst ca), snd ca)) cal.
Definition expanding (f : char -> str) (cal : ranged) : ranged :=
  flat_map (fun ca => map (fun c => (c, snd ca)) (f (fst ca))) cal.

(** Without its leading (trailing) characters satisfying [w]. *)
Fixpoint without_leading (w : char -> bool) (cal : ranged) : ranged :=
  match cal with
  | [] => []
  | ca :: r => if w (fst ca) then without_leading w r else cal
  end.
Definition without_trailing (w : char -> bool) (cal : ranged) : ranged := rev (without_leading w (rev cal)).

(** The documented meaning of a list of changes (normalizer.rs:306-316): [1]
    inserts a character, [0] replaces the next one, [-n] replaces the next one and
    removes the [n] after it. *)
Fixpoint changed (prev : nat * nat) (dest : list (char * Z)) (cal : ranged) : ranged :=
  match dest with
  | [] => []
  | (c, ch) :: d =>
      if (0 <? ch)%Z then (c, prev) :: changed prev d cal
      else match cal with
           | [] => []
           | (_, a) :: _ =>
               let k := S (Z.to_nat (- ch)) in
               (c, a) :: changed (last_al prev (firstn k cal)) d (skipn k cal)
           end
  end.

(** BERT's classes (the comments of bert.rs and the reference implementation). *)
Section with_tables.
  Context (T : tables).
  (** Whitespace: the Unicode one, tab, line feed and carriage return. *)
  Definition blank (c : char) : Prop := c = 9%N \/ c = 10%N \/ c = 13%N \/ u_white T c = true.
  (** Control characters: the Unicode "Other" category but those three. *)
  Definition control (c : char) : Prop := c <> 9%N /\ c <> 10%N /\ c <> 13%N /\ u_other T c = true.
  (** C60: what is left of a cleaned text. *)
  Definition clean_char (c : char) : Prop :=
    c <> 0%N /\ c <> 0xFFFD%N /\ ~ control c /\ (blank c -> c = 32%N).
End with_tables.

(** The CJK ideograph blocks the reference implementation lists, first and last. *)
Definition cjk_blocks : list (N * N) :=
  [(0x4E00, 0x9FFF); (0x3400, 0x4DBF); (0x20000, 0x2A6DF); (0x2A700, 0x2B73F);
   (0x2B740, 0x2B81F); (0x2B820, 0x2CEAF); (0xF900, 0xFAFF); (0x2F800, 0x2FA1F)]%N.
Definition ideograph (c : char) : Prop := exists a b, In (a, b) cjk_blocks /\ (a <= c <= b)%N.
(** The part of the sixth block the code leaves out. *)
Definition forgotten (c : char) : Prop := (0x2B820 <= c <= 0x2B91F)%N.

(** Every character of the class stands between two spaces. *)
Definition isolated (K : char -> Prop) (s : str) : Prop :=
  forall p c q, s = p ++ c :: q -> K c ->
    (exists p', p = p' ++ [32%N]) /\ (exists q', q = 32%N :: q').

(** What C60 needs of the Unicode tables when accents are stripped or the text
    lowercased: the normal form of a text goes word by word, an ideograph keeps
    being one character, and neither the decomposition nor the lowercasing of
    other characters produces ideographs. *)
Definition nfd_text (T : tables) (s : str) : str := map fst (u_nfd T s).
Record cjk_tables (T : tables) (K : char -> Prop) : Prop := {
  cj_words : forall p q, nfd_text T (p ++ 32%N :: q) = nfd_text T p ++ 32%N :: nfd_text T q;
  cj_single : forall c, K c -> exists d, nfd_text T [c] = [d];
  cj_none : forall s, Forall (fun c => ~ K c) s -> Forall (fun c => ~ K c) (nfd_text T s);
  cj_space_mark : u_nonspacing T 32%N = false;
  cj_space_lower : u_lower T 32%N = [32%N];
  cj_lower_one : forall c, K c -> u_lower T c = [c];
  cj_lower_none : forall c, ~ K c -> Forall (fun d => ~ K d) (u_lower T c)
}.

(** ** C68 *)
(** What is assumed of a normal form: changes in the documented format, the
    first one not an insertion, and scalar values. *)
Definition form_ok (form : str -> list (char * Z)) : Prop :=
  forall s, text s -> starts_by_replacing (form s) /\ changes_fit (length s) (form s) /\ text (map fst (form s)).
Record tables_ok (T : tables) : Prop := {
  ok_nfd : form_ok (u_nfd T);
  ok_nfkd : form_ok (u_nfkd T);
  ok_nfc : form_ok (u_nfc T);
  ok_nfkc : form_ok (u_nfkc T);
  ok_lower : forall c, u_lower T c <> [] /\ (is_scalar c = true -> text (u_lower T c))
}.

(** No text is inserted before everything: the prefix of [Prepend] is not empty,
    and the expression of [Replace] has no empty match at the start of a text. *)
Fixpoint usable (n : normalizer) : Prop :=
  match n with
  | NPrepend s => s <> [] /\ text s
  | NReplace find content =>
      text content /\
      forall s, engine_matches s 0 (find s) /\
                match find s with (0, 0) :: _ => s = [] | _ => True end
  | NPrecompiled chart graphemes =>
      (forall s, concat (graphemes s) = s /\ Forall (fun g => g <> []) (graphemes s)) /\
      (forall s x, text s -> chart s = Some x -> text x)
  | NSequence l => (fix all (l : list normalizer) : Prop := match l with [] => True | n :: l' => usable n /\ all l' end) l
  | _ => True
  end.

(** A grapheme (or a character) and its replacement: the i-th new character
    carries the range of the i-th old one, the extra ones that of the last. *)
Fixpoint fitted (prev : nat * nat) (old : ranged) (new : str) : ranged :=
  match new, old with
  | [], _ => []
  | c :: new', (_, a) :: old' => (c, a) :: fitted a old' new'
  | c :: new', [] => (c, prev) :: fitted prev [] new'
  end.

(** SentencePiece charts: short graphemes (less than 6 bytes) are looked up
    whole, the others and those not found character by character. *)
Definition charted (chart : str -> option str) (g : ranged) : list (ranged * str) :=
  match (if blen (ctext g) <? 6 then chart (ctext g) else None) with
  | Some x => [(g, x)]
  | None => map (fun ca => ([ca], match chart [fst ca] with Some x => x | None => [fst ca] end)) g
  end.

Section relation.
  Context (T : tables).

  Definition bert_clean (cal : ranged) (cal' : ranged) : Prop :=
    exists keep sp, (forall c, keep c = true <-> (c <> 0%N /\ c <> 0xFFFD%N /\ ~ control T c)) /\
      (forall c, blank T c -> sp c = 32%N) /\ (forall c, ~ blank T c -> sp c = c) /\
      cal' = rewriting sp (keeping keep cal).
  Definition bert_isolate (cal : ranged) (cal' : ranged) : Prop :=
    exists f, (forall c, ideograph c -> ~ forgotten c -> f c = [32%N; c; 32%N]) /\
      (forall c, ~ ideograph c \/ forgotten c -> f c = [c]) /\ cal' = expanding f cal.
  Definition formed (form : str -> list (char * Z)) (cal : ranged) : ranged := changed (0, 0) (form (ctext cal)) cal.
  Definition when (b : bool) (R : ranged -> ranged -> Prop) (cal cal' : ranged) : Prop :=
    if b then R cal cal' else cal' = cal.

  Inductive normalizes : normalizer -> ranged -> ranged -> Prop :=
  | nz_bert (clean cjk : bool) (strip : option bool) (lower : bool) c0 c1 c2 c3 c4 :
      when clean bert_clean c0 c1 -> when cjk bert_isolate c1 c2 ->
      when (match strip with Some b => b | None => lower end)
           (fun c c' => c' = keeping (fun x => negb (u_nonspacing T x)) (formed (u_nfd T) c)) c2 c3 ->
      when lower (fun c c' => c' = expanding (u_lower T) c) c3 c4 ->
      normalizes (NBert clean cjk strip lower) c0 c4
  | nz_strip (l r : bool) cal cal' :
      cal' = (if r then without_trailing (u_white T) else fun c : ranged => c)
               ((if l then without_leading (u_white T) else fun c : ranged => c) cal) ->
      normalizes (NStrip l r) cal cal'
  | nz_accents cal : normalizes NStripAccents cal (keeping (fun c => negb (u_combining T c)) cal)
  | nz_nfc cal : normalizes NNFC cal (formed (u_nfc T) cal)
  | nz_nfd cal : normalizes NNFD cal (formed (u_nfd T) cal)
  | nz_nfkc cal : normalizes NNFKC cal (formed (u_nfkc T) cal)
  | nz_nfkd cal : normalizes NNFKD cal (formed (u_nfkd T) cal)
  | nz_nil cal : normalizes (NSequence []) cal cal
  | nz_cons n l cal cal1 cal2 : normalizes n cal cal1 -> normalizes (NSequence l) cal1 cal2 -> normalizes (NSequence (n :: l)) cal cal2
  | nz_lower cal : normalizes NLowercase cal (expanding (u_lower T) cal)
  | nz_nmt cal : normalizes NNmt cal
      (rewriting (fun c => if existsb (N.eqb c) [0x9; 0xA; 0xC; 0xD; 0x1680; 0x200B; 0x200C; 0x200D; 0x200E; 0x200F; 0x2028; 0x2029; 0x2581; 0xFEFF; 0xFFFD]%N
                          then 32%N else c)
        (keeping (fun c => negb (existsb (N.eqb c)
                   [1; 2; 3; 4; 5; 6; 7; 8; 0xB; 0xE; 0xF; 0x10; 0x11; 0x12; 0x13; 0x14; 0x15; 0x16; 0x17; 0x18; 0x19; 0x1A; 0x1B; 0x1C; 0x1D; 0x1E; 0x1F; 0x7F; 0x8F; 0x9F]%N)) cal))
  | nz_precompiled chart graphemes cal cal' gs :
      concat gs = cal -> map ctext gs = graphemes (ctext cal) ->
      let pieces := flat_map (charted chart) gs in
      ctext cal' = concat (map snd pieces) ->
      (Forall (fun p : ranged * str => snd p <> []) pieces -> cal' = flat_map (fun p : ranged * str => fitted (0, 0) (fst p) (snd p)) pieces) ->
      normalizes (NPrecompiled chart graphemes) cal cal'
  | nz_replace find content segs cal :
      cal = concat (map fst segs) ->
      covers_text (regex_find_matches find (ctext cal)) (map (fun s => (ctext (fst s), snd s)) segs) (ctext cal) ->
      normalizes (NReplace find content) cal (spec_replace content (0, 0) segs)
  | nz_prepend_nil s : normalizes (NPrepend s) [] []
  | nz_prepend s c a r : normalizes (NPrepend s) ((c, a) :: r) (map (fun x => (x, a)) s ++ (c, a) :: r)
  | nz_byte_level cal : normalizes NByteLevel cal (expanding (fun c => byte_image [c]) cal).
End relation.
