(** Reading a page of [EncodingVisualizer] (C92). *)
From Coq Require Import ZArith String.
From Verif Require Import Base StrBytes VisualModel.

(** ** A reader of HTML *)
(** The characters that a browser shows, each with the tags of the elements it is in,
    the innermost first; None if the page is not well formed: an element that is not
    closed, a closing tag without element, an entity that is not known. *)
Definition entity (name : str) : option char :=
  if str_eqb name (lit "amp") then Some 38%N else if str_eqb name (lit "lt") then Some 60%N else if str_eqb name (lit "gt") then Some 62%N
  else if str_eqb name (lit "quot") then Some 34%N else if str_eqb name (lit "#x27") then Some 39%N else None.
Inductive mode := MText | MEntity (name : str) | MTag (tag : str) | MQuoted (tag : str).
Fixpoint page (m : mode) (inside : list str) (s : str) : option (list (char * list str)) :=
  match s with
  | [] => match m, inside with MText, [] => Some [] | _, _ => None end
  | c :: s' =>
      match m with
      | MText => if N.eqb c 60 then page (MTag []) inside s'
                 else if N.eqb c 38 then page (MEntity []) inside s'
                 else option_map (cons (c, inside)) (page MText inside s')
      | MEntity name => if N.eqb c 59
                        then match entity name with Some d => option_map (cons (d, inside)) (page MText inside s') | None => None end
                        else page (MEntity (name ++ [c])) inside s'
      | MTag tag => if N.eqb c 62
                    then match tag, inside with
                         | 47%N :: _, _ :: outer => page MText outer s'
                         | 47%N :: _, [] => None
                         | _, _ => page MText (tag :: inside) s'
                         end
                    else page (if N.eqb c 34 then MQuoted (tag ++ [c]) else MTag (tag ++ [c])) inside s'
      | MQuoted tag => page (if N.eqb c 34 then MTag (tag ++ [c]) else MQuoted (tag ++ [c])) inside s'
      end
  end.
Definition read_page (s : str) : option (list (char * list str)) := page MText [] s.

(** ** What should be on it *)
(** The tokens over a character, in order. *)
Definition over (t : shown_token) (i : nat) : Prop := exists a b, snd t = Some (a, b) /\ a <= i < b.
(** [k] is the first token over the character. *)
Definition first_over (toks : list shown_token) (i k : nat) (tok : str) : Prop :=
  exists l1 t l2, toks = l1 ++ t :: l2 /\ length l1 = k /\ fst t = tok /\ over t i /\ Forall (fun u => ~ over u i) l1.
Definition no_token (toks : list shown_token) (i : nat) : Prop := Forall (fun u => ~ over u i) toks.
Definition two_over (toks : list shown_token) (i : nat) : Prop :=
  exists l1 t l2 u l3, toks = l1 ++ t :: l2 ++ u :: l3 /\ over t i /\ over u i.

(** The last annotation over a character. *)
Definition noted (a : annotation) (i : nat) : Prop := (a_start a <= Z.of_nat i < a_end a)%Z.
Definition last_noted (annos : list annotation) (i k : nat) (a : annotation) : Prop :=
  exists l1 l2, annos = l1 ++ a :: l2 /\ length l1 = k /\ noted a i /\ Forall (fun b => ~ noted b i) l2.
Definition not_noted (annos : list annotation) (i : nat) : Prop := Forall (fun a => ~ noted a i) annos.

(** "unk" or "oov" is in the token, in small or capital letters; the Kelvin sign (8490)
    is taken for a "k" (see the finding [C92_unk_refuted]). *)
Definition unknown_like (tok : str) : Prop :=
  exists p a b c q, tok = p ++ [a; b; c] ++ q /\
    ((In a (lit "uU") /\ In b (lit "nN") /\ In c (8490%N :: lit "kK")) \/ (In a (lit "oO") /\ In b (lit "oO") /\ In c (lit "vV"))).

(** The tag of a span with its classes. *)
Definition span_tag (classes : list str) (data : str) : str := lit "span class=" ++ quote ++ joined classes ++ quote ++ lit " " ++ data ++ lit " ".
(** The tag says which token a character is in: "token" with the parity of the first
    token over it, or "non-token"; unknown tokens are marked and named. *)
Definition token_tag (toks : list shown_token) (i : nat) (multi : bool) (tag : str) : Prop :=
  (no_token toks i /\ tag = span_tag [lit "non-token"] []) \/
  exists k tok, first_over toks i k tok /\
    let classes := [lit "token"] ++ (if multi then [lit "multi-token"] else []) ++ [if Nat.odd k then lit "odd-token" else lit "even-token"] in
    ((~ unknown_like tok /\ tag = span_tag classes []) \/
     (unknown_like tok /\ tag = span_tag (classes ++ [lit "special-token"]) (lit " data-stok=" ++ quote ++ tok ++ quote))).
Definition anno_tag (annos : list annotation) (a : annotation) (tag : str) : Prop :=
  exists h, label_hue annos (a_label a) = Some h /\
    tag = lit "span class=" ++ quote ++ lit "annotation" ++ quote ++ lit " style=" ++ quote ++ lit "color:" ++ color h ++ quote ++ lit " data-label=" ++ quote ++ a_label a ++ quote.
(** Two neighbours are shown in one span if they have the same token and annotation;
    [i] begins one if they differ from the character before. *)
Definition same_note (annos : list annotation) (i j : nat) : Prop :=
  (not_noted annos i /\ not_noted annos j) \/ exists k a, last_noted annos i k a /\ last_noted annos j k a.
Definition same_token (toks : list shown_token) (i j : nat) : Prop :=
  (no_token toks i /\ no_token toks j) \/ exists k tok, first_over toks i k tok /\ first_over toks j k tok.
Definition begins (toks : list shown_token) (annos : list annotation) (i : nat) : Prop :=
  forall j, S j = i -> ~ (same_token toks j i /\ same_note annos j i).
(** The elements that character [i] should be in; "multi-token" is said of the first
    character of a span. *)
Definition shown_in (toks : list shown_token) (annos : list annotation) (i : nat) (tags : list str) : Prop :=
  exists multi tag, token_tag toks i multi tag /\ (begins toks annos i -> (multi = true <-> two_over toks i)) /\
    ((not_noted annos i /\ tags = [tag]) \/
     exists k a tag', last_noted annos i k a /\ anno_tag annos a tag' /\ tags = [tag; tag']).

(** ** What is asked of the arguments *)
Definition tokens_fit (text : str) (toks : list shown_token) : Prop :=
  Forall (fun t : shown_token => forall a b, snd t = Some (a, b) -> a < b -> b <= length text) toks.
Definition annos_fit (text : str) (annos : list annotation) : Prop :=
  Forall (fun a => (a_start a < a_end a -> 0 <= a_start a /\ a_end a <= Z.of_nat (length text))%Z) annos.
Definition no_quotes (toks : list shown_token) (annos : list annotation) : Prop :=
  Forall (fun t : shown_token => unknown_like (fst t) -> ~ In 34%N (fst t)) toks /\ Forall (fun a => ~ In 34%N (a_label a)) annos.
