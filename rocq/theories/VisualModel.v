(** The HTML of [EncodingVisualizer].
    Source: /repo/bindings/python/py_src/tokenizers/tools/visualizer.py.
    The display in a notebook, the style sheet and the body around the spans
    ([HTMLBody], 401-420: constant text) are not modelled. *)
From Coq Require Import ZArith String Ascii DecimalString NArith.
From Verif Require Import Base StrBytes.

Local Open Scope string_scope.
Definition lit (s : string) : str := map N_of_ascii (list_ascii_of_string s).
Local Close Scope string_scope.

(** [Annotation], visualizer.py:16-24; [start] and [end] are any Python integers. *)
Record annotation := mkAnno { a_start : Z; a_end : Z; a_label : str }.
(** What is used of the encoding: each token with [token_to_chars] (None for tokens of
    no sequence). *)
Definition shown_token := (str * option (nat * nat))%type.

(** [CharState], visualizer.py:36-61; [char_ix] is never None (special tokens make no
    state). *)
Record char_state := mkCS { c_ix : nat; c_tokens : list nat; c_anno : option nat }.
Definition token_ix (c : char_state) : option nat := match c_tokens c with [] => None | k :: _ => Some k end.
Definition is_multitoken (c : char_state) : bool := 1 <? length (c_tokens c).
Definition opt_eqb (a b : option nat) : bool :=
  match a, b with Some x, Some y => x =? y | None, None => true | _, _ => false end.
(** [partition_key], 56-60, compared. *)
Definition same_key (a b : char_state) : bool := opt_eqb (token_ix a) (token_ix b) && opt_eqb (c_anno a) (c_anno b).

(** [l[i] = v] and [f l[i]] of a Python list: negative indices count from the end; an
    IndexError is [Err]. *)
Fixpoint change_at {A} (i : nat) (f : A -> A) (l : list A) : list A :=
  match l, i with
  | [], _ => []
  | x :: l', 0 => f x :: l'
  | x :: l', S i' => x :: change_at i' f l'
  end.
Definition py_change {A} (i : Z) (f : A -> A) (l : list A) : res unit (list A) :=
  let n := Z.of_nat (length l) in
  if ((0 <=? i) && (i <? n))%Z then Ok (change_at (Z.to_nat i) f l)
  else if ((- n <=? i) && (i <? 0))%Z then Ok (change_at (Z.to_nat (i + n)) f l)
  else Err tt.
(** [for i in range(a, b)]. *)
Definition py_range (a b : Z) : list Z := map (fun k => (a + Z.of_nat k)%Z) (seq 0 (Z.to_nat (b - a))).
Fixpoint for_each {A B} (f : A -> B -> res unit A) (a : A) (l : list B) : res unit A :=
  match l with [] => Ok a | x :: l' => let! a := f a x in for_each f a l' end.

(** [__make_anno_map], 332-351. *)
Definition make_anno_map (n : nat) (annos : list annotation) : res unit (list (option nat)) :=
  for_each (fun m ka => for_each (fun m i => py_change i (fun _ => Some (fst ka)) m) m (py_range (a_start (snd ka)) (a_end (snd ka))))
    (repeat None n) (combine (seq 0 (length annos)) annos).

(** [__make_char_states], 353-392. *)
Definition add_token (k : nat) (c : char_state) : char_state := mkCS (c_ix c) (c_tokens c ++ [k]) (c_anno c).
Definition make_char_states (text : str) (toks : list shown_token) (annos : list annotation) : res unit (list char_state) :=
  let! map_ := make_anno_map (length text) annos in
  let! states := for_each (fun l kt => match snd (snd kt) with
                                       | None => Ok l
                                       | Some (a, b) => for_each (fun l i => py_change i (add_token (fst kt)) l) l (py_range (Z.of_nat a) (Z.of_nat b))
                                       end)
                   (map (fun i => mkCS i [] None) (seq 0 (length text))) (combine (seq 0 (length toks)) toks) in
  Ok (map (fun ca => mkCS (c_ix (fst ca)) (c_tokens (fst ca)) (snd ca)) (combine states map_)).

(** [calculate_label_colors], 158-186: the hue of a label from its rank among the sorted
    labels. *)
Fixpoint str_compare (a b : str) : comparison :=
  match a, b with
  | [], [] => Eq
  | [], _ => Lt
  | _, [] => Gt
  | x :: a', y :: b' => match N.compare x y with Eq => str_compare a' b' | r => r end
  end.
Fixpoint insert_label (x : str) (l : list str) : list str :=
  match l with
  | [] => [x]
  | y :: l' => match str_compare x y with Eq => l | Lt => x :: l | Gt => y :: insert_label x l' end
  end.
Definition sorted_labels (annos : list annotation) : list str := fold_right insert_label [] (map a_label annos).
Definition h_step (n : nat) : N := N.max 20 (255 / N.of_nat n).
Fixpoint rank (x : str) (l : list str) : option nat :=
  match l with [] => None | y :: l' => if str_eqb x y then Some 0 else option_map S (rank x l') end.
Definition label_hue (annos : list annotation) (label : str) : option N :=
  let labels := sorted_labels annos in
  match rank label labels with Some k => Some (10 + N.of_nat k * h_step (length labels))%N | None => None end.
Definition decimal (n : N) : str := lit (NilZero.string_of_uint (N.to_uint n)).
Definition color (h : N) : str := lit "hsl(" ++ decimal h ++ lit ",32%,64%)".

(** [html.escape] of the standard library of Python. *)
Definition escape_char (c : char) : str :=
  if N.eqb c 38 then lit "&amp;" else if N.eqb c 60 then lit "&lt;" else if N.eqb c 62 then lit "&gt;"
  else if N.eqb c 34 then lit "&quot;" else if N.eqb c 39 then lit "&#x27;" else [c].
Definition escape (s : str) : str := flat_map escape_char s.

(** [unk_token_regex.search(token) is not None], 82: in the pattern "\b" is a backspace
    and the groups with it are optional, so that "unk" or "oov" anywhere is a match;
    without case, and for Python the Kelvin sign is a "k". *)
Definition letter (c : char) (l : list N) : bool := existsb (N.eqb c) l.
Definition unk_here (s : str) : bool :=
  match s with
  | a :: b :: c :: _ => (letter a [117; 85] && letter b [110; 78] && letter c [107; 75; 8490]) || (letter a [111; 79] && letter b [111; 79] && letter c [118; 86])
  | _ => false
  end%N.
Fixpoint looks_unknown (s : str) : bool := unk_here s || match s with [] => false | _ :: s' => looks_unknown s' end.

(** [text[a:b]] for [a <= b]. *)
Definition cut (s : str) (a b : nat) : str := firstn (b - a) (skipn a s).

Definition quote : str := [34%N].
Fixpoint joined (l : list str) : str := match l with [] => [] | [x] => x | x :: l' => x ++ 32%N :: joined l' end.

(** [consecutive_chars_to_html], 188-257. *)
Definition chars_to_html (group : list char_state) (text : str) (toks : list shown_token) : res unit str :=
  match group with
  | [] => Err tt
  | first :: _ =>
      let last := List.last group first in
      let span_text := cut text (c_ix first) (c_ix last + 1) in
      let! parts := match token_ix first with
                    | Some k =>
                        match nth_error toks k with
                        | None => Err tt
                        | Some (tok, _) =>
                            let classes := [lit "token"] ++ (if is_multitoken first then [lit "multi-token"] else [])
                                           ++ [if Nat.odd k then lit "odd-token" else lit "even-token"] in
                            Ok (if looks_unknown tok then (classes ++ [lit "special-token"], lit " data-stok=" ++ quote ++ tok ++ quote) else (classes, []))
                        end
                    | None => Ok ([lit "non-token"], [])
                    end in
      Ok (lit "<span class=" ++ quote ++ joined (fst parts) ++ quote ++ lit " " ++ snd parts ++ lit " >" ++ escape span_text ++ lit "</span>")
  end.

(** The opening of the span of an annotation, 270-272 and 294-296. *)
Definition open_anno (annos : list annotation) (k : nat) : res unit str :=
  match nth_error annos k with
  | None => Err tt
  | Some a => match label_hue annos (a_label a) with
              | None => Err tt
              | Some h => Ok (lit "<span class=" ++ quote ++ lit "annotation" ++ quote ++ lit " style=" ++ quote ++ lit "color:" ++ color h ++ quote
                              ++ lit " data-label=" ++ quote ++ a_label a ++ quote ++ lit ">")
              end
  end.
Definition open_opt (annos : list annotation) (o : option nat) : res unit str :=
  match o with Some k => open_anno annos k | None => Ok [] end.
Definition close_opt (o : option nat) : str := match o with Some _ => lit "</span>" | None => [] end.

(** The loop of [__make_html], 274-313, with the end, 314-327. *)
Fixpoint html_loop (text : str) (toks : list shown_token) (annos : list annotation)
    (group : list char_state) (prev : option nat) (spans : str) (l : list char_state) : res unit str :=
  match l with
  | [] => let! last := chars_to_html group text toks in Ok (spans ++ last ++ close_opt prev)
  | cs :: l' =>
      let cur := c_anno cs in
      let! gs := (if opt_eqb cur prev then Ok (group, spans)
                  else let! span := chars_to_html group text toks in
                       let! op := open_opt annos cur in
                       Ok ([cs], spans ++ span ++ close_opt prev ++ op)) in
      match fst gs with
      | [] => Err tt
      | first :: _ =>
          if same_key cs first then html_loop text toks annos (fst gs ++ [cs]) cur (snd gs) l'
          else let! span := chars_to_html (fst gs) text toks in html_loop text toks annos [cs] cur (snd gs ++ span) l'
      end
  end.

(** [__make_html], 259-329, without [HTMLBody]. *)
Definition make_html (text : str) (toks : list shown_token) (annos : list annotation) : res unit str :=
  let! states := make_char_states text toks annos in
  match states with
  | [] => Err tt
  | cs :: l => let! op := open_opt annos (c_anno cs) in html_loop text toks annos [cs] (c_anno cs) op l
  end.
