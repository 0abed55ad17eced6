(** Specification vocabulary for added tokens (C25-C30, C57). *)
From Verif Require Import Base StrBytes AMap EncodingModel NormModel PreTokModel AddedModel.

(** A model vocabulary: a finite table of tokens, read in both directions, each
    id belonging to one token. *)
Record model_ok (m : model_vocab) : Prop := {
  mo_keys : NoDup (map fst (mv_vocab m));
  mo_read : forall t i, mv_token_to_id m t = Some i <-> In (t, i) (mv_vocab m);
  mo_back : forall t i, mv_id_to_token m i = Some t <-> mv_token_to_id m t = Some i;
  mo_size : mv_size m = length (mv_vocab m) }.

(** The ids of the model are below its size (with [model_ok]: they are 0..n-1). *)
Definition dense (m : model_vocab) : Prop :=
  forall t i, mv_token_to_id m t = Some i -> (i < N.of_nat (mv_size m))%N.

(** Everything that can happen to the added tokens of a tokenizer over the model
    [m]: additions (successful or not), replacing the normalizer, switching the
    encoding of special tokens.  [NF]: the normalizers that are used.  [offered]:
    the tokens of all the calls; [taken]: those of the calls that succeeded. *)
Inductive added_history (build : list (str * N) -> bool) (m : model_vocab) (NF : (str -> option str) -> Prop)
  : added_vocab -> list added_token -> list added_token -> Prop :=
| ah_new : added_history build m NF av_new [] []
| ah_add av offered taken norm ts av' n :
    added_history build m NF av offered taken ->
    (forall f, norm = Some f -> NF f) ->
    add_tokens build m norm ts av = (av', Some n) ->
    added_history build m NF av' (offered ++ ts) (taken ++ ts)
| ah_fail av offered taken norm ts av' :
    added_history build m NF av offered taken ->
    (forall f, norm = Some f -> NF f) ->
    add_tokens build m norm ts av = (av', None) ->
    added_history build m NF av' (offered ++ ts) taken
| ah_renormalize av offered taken norm av' ok :
    added_history build m NF av offered taken ->
    (forall f, norm = Some f -> NF f) ->
    av_refresh_normalized build norm av = (av', ok) ->
    added_history build m NF av' offered taken
| ah_encode_special av offered taken b :
    added_history build m NF av offered taken ->
    added_history build m NF (av_set_encode_special av b) offered taken.

(** One such event. *)
Inductive added_event (build : list (str * N) -> bool) (m : model_vocab) : added_vocab -> added_vocab -> Prop :=
| ae_add av norm ts av' r : add_tokens build m norm ts av = (av', r) -> added_event build m av av'
| ae_renormalize av norm av' ok : av_refresh_normalized build norm av = (av', ok) -> added_event build m av av'
| ae_encode_special av b : added_event build m av (av_set_encode_special av b).

Inductive later (build : list (str * N) -> bool) (m : model_vocab) (av : added_vocab) : added_vocab -> Prop :=
| later_now : later build m av av
| later_event av' av'' : later build m av av' -> added_event build m av' av'' -> later build m av av''.

(** The token with its flags that is registered for a content, as
    [get_added_tokens_decoder] shows it. *)
Definition registered (av : added_vocab) (c : str) : option added_token :=
  match aget str_eqb c (av_map av) with Some i => aget N.eqb i (av_map_r av) | None => None end.

(** What adding a list should do, on a table from contents to tokens: a token
    is new if it is not empty and differs from what is registered for its
    content at that moment. *)
Definition upd (cur : str -> option added_token) (t : added_token) : str -> option added_token :=
  fun c => if str_eqb c (at_content t) then Some t else cur c.

Definition is_new (cur : str -> option added_token) (t : added_token) : Prop :=
  at_content t <> [] /\ cur (at_content t) <> Some t.

Inductive adding : (str -> option added_token) -> list added_token -> nat -> (str -> option added_token) -> Prop :=
| adding_nil cur : adding cur [] 0 cur
| adding_new cur t ts n cur' :
    is_new cur t -> adding (upd cur t) ts n cur' -> adding cur (t :: ts) (S n) cur'
| adding_old cur t ts n cur' :
    ~ is_new cur t -> adding cur ts n cur' -> adding cur (t :: ts) n cur'.

(** Lists in which tokens with the same content are the same token. *)
Definition consistent (ts : list added_token) : Prop :=
  forall t u, In t ts -> In u ts -> at_content t = at_content u -> t = u.

(** What the decoder must receive: the names of the known ids, in order, without
    the special ones when [skip]. *)
Inductive feeds (name : N -> option str) (special : str -> Prop) (skip : bool) : list N -> list str -> Prop :=
| feeds_nil : feeds name special skip [] []
| feeds_unknown i ids ts : name i = None -> feeds name special skip ids ts -> feeds name special skip (i :: ids) ts
| feeds_keep i ids ts t :
    name i = Some t -> (skip = true -> ~ special t) -> feeds name special skip ids ts ->
    feeds name special skip (i :: ids) (t :: ts)
| feeds_skip i ids ts t :
    name i = Some t -> skip = true -> special t -> feeds name special skip ids ts ->
    feeds name special skip (i :: ids) ts.

(** ** Extraction of added tokens from a text (C27, C28) *)
(** Consecutive ranges from [a] to [b]. *)
Inductive tiling : nat -> nat -> list (nat * nat) -> Prop :=
| tiling_nil a : tiling a a []
| tiling_cons a b c l : a <= b -> tiling b c l -> tiling a c ((a, b) :: l).

(** Scanning [s], which starts at byte [b], for the non-empty patterns [pats]:
    each match is at the first position where some pattern occurs, is the longest
    pattern there, and the scan goes on after it. *)
Definition occurs_at (pats : list (str * N)) (s x : str) (q : str) : Prop :=
  q <> [] /\ (exists j, In (q, j) pats) /\ exists y, s = x ++ q ++ y.

Inductive leftmost_longest (pats : list (str * N)) : nat -> str -> list (nat * nat * N) -> Prop :=
| ll_none b s : (forall x q, ~ occurs_at pats s x q) -> leftmost_longest pats b s []
| ll_match b gap p i rest ms :
    p <> [] -> In (p, i) pats ->
    (forall x q, occurs_at pats (gap ++ p ++ rest) x q -> length gap <= length x) ->
    (forall q, occurs_at pats (gap ++ p ++ rest) gap q -> length q <= length p) ->
    leftmost_longest pats (b + blen gap + blen p) rest ms ->
    leftmost_longest pats b (gap ++ p ++ rest) ((b + blen gap, b + blen gap + blen p, i) :: ms).

(** The character just before / just after byte [b] of [s] satisfies [p]. *)
Definition char_before (p : char -> bool) (s : str) (b : nat) : Prop :=
  exists x c y, s = x ++ c :: y /\ blen (x ++ [c]) = b /\ p c = true.
Definition char_after (p : char -> bool) (s : str) (b : nat) : Prop :=
  exists x c y, s = x ++ c :: y /\ blen x = b /\ p c = true.

(** A match that may be reported: its token is not a special token while special
    tokens are to be encoded as text, and if it is a single word no word
    character touches it. *)
Definition reportable (is_word : char -> bool) (av : added_vocab) (s : str) (mt : nat * nat * N) : Prop :=
  let '(st, en, i) := mt in
  exists t, aget N.eqb i (av_map_r av) = Some t /\
    ~ (av_encode_special av = true /\ In (at_content t) (av_special av)) /\
    (at_single_word t = true -> ~ char_before is_word s st /\ ~ char_after is_word s en).

(** The range reported for a match: the match, and on the sides its flags allow,
    the whitespace next to it. *)
Definition reported_as (is_space : char -> bool) (av : added_vocab) (s : str)
           (mt : nat * nat * N) (r : N * (nat * nat)) : Prop :=
  let '(st, en, i) := mt in
  fst r = i /\
  exists t left right,
    aget N.eqb i (av_map_r av) = Some t /\
    str_get s (fst (snd r)) st = Some left /\ str_get s en (snd (snd r)) = Some right /\
    Forall (fun c => is_space c = true) left /\ Forall (fun c => is_space c = true) right /\
    (at_lstrip t = false -> left = []) /\ (at_rstrip t = false -> right = []) /\
    (at_rstrip t = true -> ~ char_after is_space s (snd (snd r))).

(** [bs] are the images by [R] of the elements of [as_] satisfying [P], in order. *)
Inductive picks {A B} (P : A -> Prop) (R : A -> B -> Prop) : list A -> list B -> Prop :=
| picks_nil : picks P R [] []
| picks_take a b la lb : P a -> R a b -> picks P R la lb -> picks P R (a :: la) (b :: lb)
| picks_skip a la lb : ~ P a -> picks P R la lb -> picks P R (a :: la) lb.

Definition token_spans (l : list (option N * (nat * nat))) : list (N * (nat * nat)) :=
  flat_map (fun x => match fst x with Some i => [(i, snd x)] | None => [] end) l.

(** The reported ranges of a text: they tile it; the token ranges are exactly
    those of the reportable matches; left whitespace is absorbed up to the
    previous token; plain ranges are not empty. *)
Definition extraction (is_space is_word : char -> bool) (av : added_vocab) (s : str)
           (ms : list (nat * nat * N)) (l : list (option N * (nat * nat))) : Prop :=
  tiling 0 (blen s) (map snd l) /\
  Forall (fun x => exists t, str_get s (fst (snd x)) (snd (snd x)) = Some t) l /\
  picks (reportable is_word av s) (reported_as is_space av s) ms (token_spans l) /\
  (forall a b, In (None, (a, b)) l -> a < b) /\
  (forall i a b t, In (Some i, (a, b)) l -> aget N.eqb i (av_map_r av) = Some t -> at_lstrip t = true ->
     char_before is_space s a -> exists j a', In (Some j, (a', a)) l).

(** The condition under which ranges cannot overlap: when some token absorbs
    whitespace on its right, no pattern starts with whitespace. *)
Definition strip_safe (is_space : char -> bool) (av : added_vocab) (pats : list (str * N)) : Prop :=
  (forall i t, aget N.eqb i (av_map_r av) = Some t -> at_rstrip t = false) \/
  (forall p i c q, In (p, i) pats -> p = c :: q -> is_space c = false).

(** Every pattern belongs to a registered token. *)
Definition known_patterns (av : added_vocab) (pats : list (str * N)) : Prop :=
  forall p i, In (p, i) pats -> exists t, aget N.eqb i (av_map_r av) = Some t.
