(** Specification vocabulary for decoding (C47-C52). *)
From Verif Require Import Base AMap Utf8 PatternModel PatternSpec EncodingModel NormModel NormSpec PreTokModel WordPieceModel WordPieceSpec DecodersModel.

(** [out] is [s] with the leftmost non-overlapping occurrences of the non-empty
    literal [pat] replaced by [rep]. *)
Definition replaced (pat rep s out : str) : Prop :=
  exists segs : list (str * bool),
    s = concat (map fst segs) /\ leftmost_literal pat segs /\
    out = concat (map (fun sg : str * bool => if snd sg then rep else fst sg) segs).

Definition occurs (pat s : str) : Prop := exists u v, s = u ++ pat ++ v.

(** A text: a sequence of values of the Rust type [char]. *)
Definition text (s : str) : Prop := Forall (fun c => is_scalar c = true) s.

(** ** C47: the byte-level alphabet *)
(** Bytes that stand for themselves. *)
Definition printable_byte (b : N) : bool :=
  (N.leb 33 b && N.leb b 126) || (N.leb 161 b && N.leb b 172) || (N.leb 174 b && N.leb b 255).
(** The others are numbered from 256 on, in order. *)
Definition rank_unprintable (b : N) : nat :=
  length (filter (fun i => negb (printable_byte (N.of_nat i))) (seq 0 (N.to_nat b))).
Definition byte_char (b : N) : char :=
  if printable_byte b then b else (256 + N.of_nat (rank_unprintable b))%N.

(** The byte-level image of a text. *)
Definition byte_image (s : str) : str := map byte_char (encode_utf8 s).

(** ** C48: byte tokens *)
Inductive hex_of : N -> N -> Prop :=
| hex_num d : (d < 10)%N -> hex_of (48 + d) d
| hex_upper d : (10 <= d < 16)%N -> hex_of (55 + d) d
| hex_lower d : (10 <= d < 16)%N -> hex_of (87 + d) d.

(** [<0xNN>], and what the number parser also accepts: [<0x+N>]. *)
Inductive byte_like : str -> N -> Prop :=
| byte_two h l x y : hex_of h x -> hex_of l y -> byte_like [60; 48; 120; h; l; 62]%N (x * 16 + y)%N
| byte_plus l y : hex_of l y -> byte_like [60; 48; 120; 43; l; 62]%N y.

(** What a maximal run of byte tokens becomes. *)
Inductive run_text (bs : list N) : list str -> Prop :=
| run_valid s : text s -> encode_utf8 s = bs -> run_text bs [s]
| run_invalid : (forall s, text s -> encode_utf8 s <> bs) -> run_text bs (repeat [65533%N] (length bs)).

Definition starts_plain (l : list str) : Prop :=
  match l with [] => True | t :: _ => forall b, ~ byte_like t b end.

Inductive fallback_text : list str -> list str -> Prop :=
| ft_end : fallback_text [] []
| ft_plain t rest out : (forall b, ~ byte_like t b) -> fallback_text rest out -> fallback_text (t :: rest) (t :: out)
| ft_run ts bs rest o out :
    ts <> [] -> Forall2 byte_like ts bs -> starts_plain rest -> run_text bs o -> fallback_text rest out ->
    fallback_text (ts ++ rest) (o ++ out).

(** ** C50: runs of equal tokens *)
Fixpoint no_repeat (l : list str) : Prop :=
  match l with
  | x :: ((y :: _) as r) => x <> y /\ no_repeat r
  | _ => True
  end.
(** [l] is a list of runs: the token and how many times more it is repeated. *)
Definition unroll (runs : list (str * nat)) : list str := flat_map (fun r : str * nat => repeat (fst r) (S (snd r))) runs.
Definition runs_of (l : list str) (runs : list (str * nat)) : Prop :=
  l = unroll runs /\ no_repeat (map fst runs).

(** The replacements of [cleanup], one after the other. *)
Fixpoint replaced_all (rules : list (str * str)) (s out : str) : Prop :=
  match rules with
  | [] => out = s
  | (pat, rep) :: r => exists mid, replaced pat rep s mid /\ replaced_all r mid out
  end.

(** " ." "." ; " ?" "?" ; " !" "!" ; " ," "," ; " ' " "'" ; " n't" "n't" ; " 'm" "'m" ;
    " do not" " don't" ; " 's" "'s" ; " 've" "'ve" ; " 're" "'re" *)
Definition clean_rules : list (str * str) :=
  [([32; 46], [46]); ([32; 63], [63]); ([32; 33], [33]); ([32; 44], [44]);
   ([32; 39; 32], [39]); ([32; 110; 39; 116], [110; 39; 116]); ([32; 39; 109], [39; 109]);
   ([32; 100; 111; 32; 110; 111; 116], [32; 100; 111; 110; 39; 116]);
   ([32; 39; 115], [39; 115]); ([32; 39; 118; 101], [39; 118; 101]); ([32; 39; 114; 101], [39; 114; 101])]%N.

(** The pad token, the delimiter, or a token nothing in the configuration touches. *)
Definition ordinary (pad delim t : str) : Prop :=
  t = pad \/ t = delim \/
  (t <> [] /\ ~ occurs pad t /\ ~ occurs delim t /\ Forall (fun r : str * str => ~ occurs (fst r) t) clean_rules).

(** ** C49 *)
Definition drop_one_space (t : str) : str :=
  match t with c :: r => if N.eqb c 32 then r else t | [] => [] end.

(** ** C51, Strip: cutting at most [start] copies of [c] in front and [stop] at the end. *)
Inductive stripped (c : char) (start stop : nat) : str -> str -> Prop :=
| stripped_mixed a b m :
    m <> [] -> hd_error m <> Some c -> hd_error (rev m) <> Some c ->
    stripped c start stop (repeat c a ++ m ++ repeat c b)
             (repeat c (a - start) ++ m ++ repeat c (b - stop))
| stripped_all n :
    Nat.min start n + stop <= n ->
    stripped c start stop (repeat c n) (repeat c (n - (Nat.min start n + stop))).

(** ** C52 *)
Fixpoint join_spaces (ws : list str) : str :=
  match ws with
  | [] => []
  | w :: r => match r with [] => w | _ => w ++ 32%N :: join_spaces r end
  end.

(** A piece that continues a word loses the prefix; any other is preceded by a space. *)
Inductive glued (prefix : str) : str -> str -> Prop :=
| glued_continues x : glued prefix (prefix ++ x) x
| glued_starts t : (forall x, t <> prefix ++ x) -> glued prefix t (32%N :: t).

(** A word the vocabulary can spell, not too long, that does not look like a
    continuation piece itself. *)
Definition good_word (m : wordpiece) (w : str) : Prop :=
  w <> [] /\ (forall x : str, w <> w_prefix m ++ x) /\ length w <= w_max m /\ exists xs, greedy (w_vocab m) (w_prefix m) [] w xs.

(** ** C51: decoders without a way to fail: not BPE and not Strip, and a regex
    engine that reports ordered matches on character boundaries. *)
Inductive harmless : decoder -> Prop :=
| harmless_bytes : harmless DByteLevel
| harmless_wordpiece prefix cleanup : harmless (DWordPiece prefix cleanup)
| harmless_metaspace rep scheme : harmless (DMetaspace rep scheme)
| harmless_ctc pad delim cleanup : harmless (DCtc pad delim cleanup)
| harmless_replace find_iter content : (forall s, engine_matches s 0 (find_iter s)) -> harmless (DReplace find_iter content)
| harmless_fuse : harmless DFuse
| harmless_fallback : harmless DByteFallback
| harmless_sequence ds : Forall harmless ds -> harmless (DSequence ds).

(** ** C47: a token list made of blocks: the image of a text cut anywhere, or a
    token that has a character outside the alphabet. *)
Inductive block : list str -> str -> Prop :=
| block_text toks s : text s -> concat toks = byte_image s -> block toks s
| block_foreign t c : text t -> In c t -> (forall b, (b < 256)%N -> byte_char b <> c) -> block [t] t.

(** ** C49: what one section of text stands for *)
Definition marked (rep : char) (s : str) : str := map (fun c => if N.eqb c 32 then rep else c) s.
(** The replacement character only comes first. *)
Definition head_only (rep : char) (t : str) : Prop := ~ In rep (tl t).
(** The section with the space the scheme puts in front. *)
Definition with_space (puts : bool) (s : str) : str :=
  match s with
  | [] => []
  | c :: _ => if puts && negb (N.eqb c 32) then 32%N :: s else s
  end.

(** ** Pre-tokenised strings *)
(** A section of text with the space [add_prefix_space] puts in front. *)
Definition with_prefix_space (aps : bool) (s : str) : str :=
  if aps then match s with c :: _ => if N.eqb c 32 then s else 32%N :: s | [] => [] end else s.

(** A section that is still text: well aligned, every character from a
    non-empty place of the original. *)
Definition section_ok (sp : split) : Prop :=
  sp_tokens sp = None -> aligned (sp_norm sp) /\ solid (sp_norm sp) /\ text (n_normalized (sp_norm sp)).

(** The pieces of a section: those of the regex engine, or the whole. *)
Definition engine_pieces (find_iter : str -> list (nat * nat)) (use_regex : bool) (s : str) (pieces : list str) : Prop :=
  if use_regex then exists segs, covers_text (regex_find_matches find_iter s) segs s /\ pieces = map fst segs
  else pieces = [s].
Definition nonempty_parts (l : list str) : list str := filter (fun t => negb (is_nil t)) l.

(** The splits made from one section: tokenised ones are left alone, text becomes
    the byte-level images of its non-empty pieces. *)
Definition image_group (find_iter : str -> list (nat * nat)) (use_regex aps : bool) (sp : split) (g : list split) : Prop :=
  match sp_tokens sp with
  | Some _ => g = [sp]
  | None => Forall (fun sp' => sp_tokens sp' = None) g /\
            exists pieces, engine_pieces find_iter use_regex (with_prefix_space aps (n_normalized (sp_norm sp))) pieces /\
              concat pieces = with_prefix_space aps (n_normalized (sp_norm sp)) /\
              map (fun sp' => n_normalized (sp_norm sp')) g = map byte_image (nonempty_parts pieces)
  end.

(** Does the scheme want a space in front of this section? *)
Definition puts_space (scheme : prepend_scheme) (ns : nstring) : bool :=
  match scheme with SAlways => true | SFirst => fst (offsets_original ns) =? 0 | SNever => false end.

(** The splits Metaspace makes from one section: cut before every replacement
    character, or not at all. *)
Definition meta_group (rep : char) (scheme : prepend_scheme) (do_split : bool) (sp : split) (g : list split) : Prop :=
  match sp_tokens sp with
  | Some _ => g = [sp]
  | None =>
      Forall (fun sp' => sp_tokens sp' = None /\ n_normalized (sp_norm sp') <> []) g /\
      (if do_split
       then Forall (fun sp' => head_only rep (n_normalized (sp_norm sp'))) g /\
            Forall (fun sp' => hd_error (n_normalized (sp_norm sp')) = Some rep) (tl g)
       else length g <= 1) /\
      concat (map (fun sp' => n_normalized (sp_norm sp')) g) = marked rep (with_space (puts_space scheme (sp_norm sp)) (n_normalized (sp_norm sp)))
  end.
