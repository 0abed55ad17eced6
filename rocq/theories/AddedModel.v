(** Model of [AddedVocabulary] and of the vocabulary functions of the tokenizer.
    Source: /repo/tokenizers/src/tokenizer/added_vocabulary.rs, mod.rs and
    serialization.rs.  Ids are unbounded ([u32] overflow of [next_id] is not
    modelled); error and warning messages are dropped. *)
From Verif Require Import Base StrBytes AMap EncodingModel NormModel PreTokModel.

(** [struct AddedToken], added_vocabulary.rs:17-31.  Equality of two tokens is
    equality of all fields (derive PartialEq). *)
Record added_token := mkAdded {
  at_content : str; at_single_word : bool; at_lstrip : bool; at_rstrip : bool;
  at_normalized : bool; at_special : bool }.

Definition added_token_eqb (a b : added_token) : bool :=
  str_eqb (at_content a) (at_content b) && Bool.eqb (at_single_word a) (at_single_word b) &&
  Bool.eqb (at_lstrip a) (at_lstrip b) && Bool.eqb (at_rstrip a) (at_rstrip b) &&
  Bool.eqb (at_normalized a) (at_normalized b) && Bool.eqb (at_special a) (at_special b).

(** What the added vocabulary uses of a [Model] (mod.rs:70-88): its vocabulary. *)
Record model_vocab := mkModel {
  mv_token_to_id : str -> option N; mv_id_to_token : N -> option str;
  mv_vocab : list (str * N); mv_size : nat }.

(** [struct AddedVocabulary], added_vocabulary.rs:144-172.  A matching automaton
    is represented by its patterns. *)
Record added_vocab := mkAV {
  av_map : list (str * N); av_map_r : list (N * added_token); av_special : list str;
  av_cache : list (N * str);
  av_trie : option (list (str * N)); av_ntrie : option (list (str * N));
  av_encode_special : bool }.

(** [new], added_vocabulary.rs:186-196. *)
Definition av_new : added_vocab := mkAV [] [] [] [] None None false.

Definition str_mem (s : str) (l : list str) : bool := existsb (str_eqb s) l.

(** [token_to_id], added_vocabulary.rs:219-224. *)
Definition av_token_to_id (av : added_vocab) (m : model_vocab) (t : str) : option N :=
  match aget str_eqb t (av_map av) with Some i => Some i | None => mv_token_to_id m t end.

(** [id_to_token] (deprecated), added_vocabulary.rs:231-236. *)
Definition av_id_to_token (av : added_vocab) (m : model_vocab) (i : N) : option str :=
  match aget N.eqb i (av_map_r av) with Some t => Some (at_content t) | None => mv_id_to_token m i end.

(** [simple_id_to_token], added_vocabulary.rs:244-251. *)
Definition av_simple_id_to_token (av : added_vocab) (i : N) : option str :=
  match aget N.eqb i (av_map_r av) with
  | Some t => Some (match aget N.eqb i (av_cache av) with Some n => n | None => at_content t end)
  | None => None
  end.

(** [is_special_token], added_vocabulary.rs:263-265. *)
Definition av_is_special (av : added_vocab) (t : str) : bool := str_mem t (av_special av).

(** [set_encode_special_tokens], added_vocabulary.rs:254-256. *)
Definition av_set_encode_special (av : added_vocab) (b : bool) : added_vocab :=
  mkAV (av_map av) (av_map_r av) (av_special av) (av_cache av) (av_trie av) (av_ntrie av) b.

(** The start of [next_id], added_vocabulary.rs:288-298. *)
Definition list_max_N (l : list N) : option N :=
  match l with [] => None | x :: l' => Some (fold_left N.max l' x) end.

Definition first_next_id (av : added_vocab) (m : model_vocab) : N :=
  let size := N.of_nat (mv_size m) in
  match list_max_N (map fst (av_map_r av)) with
  | None => size
  | Some mx => if (N.leb size mx) || (N.eqb size 0) then (mx + 1)%N else size
  end.

(** [refresh_added_tokens], added_vocabulary.rs:379-424.  [build] tells whether
    the external automaton builder accepts a list of patterns. *)
Definition normalized_pairs (av : added_vocab) : list (str * N) :=
  flat_map (fun it => if at_normalized (snd it)
                      then [(match aget N.eqb (fst it) (av_cache av) with Some n => n | None => at_content (snd it) end, fst it)]
                      else []) (av_map_r av).
Definition plain_pairs (av : added_vocab) : list (str * N) :=
  flat_map (fun it => if at_normalized (snd it) then [] else [(at_content (snd it), fst it)]) (av_map_r av).

Definition av_refresh (build : list (str * N) -> bool) (av : added_vocab) : added_vocab * bool :=
  let pp := plain_pairs av in
  let np := normalized_pairs av in
  if is_nil pp || build pp then
    let t := if is_nil pp then None else Some pp in
    if is_nil np || build np then
      (mkAV (av_map av) (av_map_r av) (av_special av) (av_cache av) t
            (if is_nil np then None else Some np) (av_encode_special av), true)
    else (mkAV (av_map av) (av_map_r av) (av_special av) (av_cache av) t (av_ntrie av) (av_encode_special av), false)
  else (av, false).

(** One token of the loop of [add_tokens], added_vocabulary.rs:300-346, when
    the normalizer ([None] when there is none) does not fail on it.  The
    boolean tells whether the token was recorded (not ignored). *)
Definition add_one (m : model_vocab) (normed : option str) (t : added_token) (av : added_vocab) (next : N)
  : added_vocab * N * bool :=
  if is_nil (at_content t) then (av, next, false)
  else if match aget str_eqb (at_content t) (av_map av) with
          | Some i => match aget N.eqb i (av_map_r av) with Some t' => added_token_eqb t' t | None => false end
          | None => false
          end
  then (av, next, false)
  else
    let '(new_id, next') := match av_token_to_id av m (at_content t) with
                            | Some i => (i, next)
                            | None => (next, (next + 1)%N)
                            end in
    let cache := match normed with
                 | Some n => if at_normalized t && negb (str_eqb n (at_content t))
                             then aset N.eqb new_id n (av_cache av) else av_cache av
                 | None => av_cache av
                 end in
    let special := if at_special t && negb (str_mem (at_content t) (av_special av))
                   then at_content t :: av_special av else av_special av in
    (mkAV (aset str_eqb (at_content t) new_id (av_map av)) (aset N.eqb new_id t (av_map_r av))
          special cache (av_trie av) (av_ntrie av) (av_encode_special av), next', true).

(** [normalizer]: the text it gives for a content; [None] when it returns an
    error.  [is_ignored] repeats the tests done before normalising: an ignored
    token is not normalised. *)
Definition is_ignored (t : added_token) (av : added_vocab) : bool :=
  is_nil (at_content t) ||
  match aget str_eqb (at_content t) (av_map av) with
  | Some i => match aget N.eqb i (av_map_r av) with Some t' => added_token_eqb t' t | None => false end
  | None => false
  end.

Fixpoint add_loop (m : model_vocab) (norm : option (str -> option str)) (ts : list added_token)
         (av : added_vocab) (next : N) (count : nat) : added_vocab * option nat :=
  match ts with
  | [] => (av, Some count)
  | t :: ts' =>
      let go normed :=
        let '(av', next', rec) := add_one m normed t av next in
        add_loop m norm ts' av' next' (if rec then count + 1 else count) in
      match norm with
      | Some f =>
          if is_ignored t av || negb (at_normalized t) then go None
          else match f (at_content t) with
               | Some n => go (Some n)
               | None => (av, None)
               end
      | None => go None
      end
  end.

(** [add_tokens] / [add_special_tokens], added_vocabulary.rs:268-353: the new
    state and the returned count ([None]: an error was returned; what was
    recorded before stays, the automata are not rebuilt). *)
Definition add_tokens (build : list (str * N) -> bool) (m : model_vocab) (norm : option (str -> option str))
           (ts : list added_token) (av : added_vocab) : added_vocab * option nat :=
  match add_loop m norm ts av (first_next_id av m) 0 with
  | (av', None) => (av', None)
  | (av', Some n) =>
      let '(av2, ok) := av_refresh build av' in (av2, if ok then Some n else None)
  end.

(** [refresh_normalized_tokens], added_vocabulary.rs:364-378; [None] from the
    normalizer leaves the cache half rebuilt. *)
Fixpoint recache (norm : option (str -> option str)) (l : list (N * added_token)) (c : list (N * str))
  : list (N * str) * bool :=
  match l with
  | [] => (c, true)
  | (i, t) :: l' =>
      match norm with
      | Some f =>
          if at_normalized t then
            match f (at_content t) with
            | Some n => recache norm l' (if str_eqb n (at_content t) then c else aset N.eqb i n c)
            | None => (c, false)
            end
          else recache norm l' c
      | None => recache norm l' c
      end
  end.

Definition av_refresh_normalized (build : list (str * N) -> bool) (norm : option (str -> option str))
           (av : added_vocab) : added_vocab * bool :=
  let '(c, ok) := recache norm (av_map_r av) [] in
  let av' := mkAV (av_map av) (av_map_r av) (av_special av) c (av_trie av) (av_ntrie av) (av_encode_special av) in
  if ok then av_refresh build av' else (av', false).

(** ** Matching *)
(** [str::starts_with]. *)
Fixpoint is_prefix_of (p s : str) : bool :=
  match p, s with
  | [], _ => true
  | a :: p', b :: s' => N.eqb a b && is_prefix_of p' s'
  | _ :: _, [] => false
  end.

(** The longest non-empty pattern starting here (the first of the list among equals). *)
Fixpoint longest_at (pats : list (str * N)) (s : str) : option (str * N) :=
  match pats with
  | [] => None
  | (p, i) :: rest =>
      let best := longest_at rest s in
      if negb (is_nil p) && is_prefix_of p s then
        match best with
        | Some (q, _) => if length q <=? length p then Some (p, i) else best
        | None => Some (p, i)
        end
      else best
  end.

(** [DoubleArrayAhoCorasick::leftmost_find_iter] with [MatchKind::LeftmostLongest]
    (external crate daachorse), by its documented meaning: scan from the left, at
    the first position where a pattern matches take the longest one, go on after
    it.  [b] is the byte position, [skip] the characters of the current match. *)
Fixpoint leftmost_find (pats : list (str * N)) (b skip : nat) (s : str) : list (nat * nat * N) :=
  match s with
  | [] => []
  | c :: s' =>
      match skip with
      | S k => leftmost_find pats (b + len_utf8 c) k s'
      | O =>
          match longest_at pats s with
          | Some (p, i) => (b, b + blen p, i) :: leftmost_find pats (b + len_utf8 c) (length p - 1) s'
          | None => leftmost_find pats (b + len_utf8 c) 0 s'
          end
      end
  end.

Section matching.
  (** Unicode classes [\s] and [\w] of the regex crate. *)
  Context (is_space is_word : char -> bool).

  (** added_vocabulary.rs:103-125 (regexes [\w$], [^\w], [\s*$], [^\s*]). *)
  Definition ends_with_word (s : str) : bool := match rev s with c :: _ => is_word c | [] => false end.
  Definition starts_with_word (s : str) : bool := match s with c :: _ => is_word c | [] => false end.

  Fixpoint take_spaces (s : str) : str :=
    match s with c :: s' => if is_space c then c :: take_spaces s' else [] | [] => [] end.

  Definition space_leftmost_at_end (s : str) : nat := blen s - blen (take_spaces (rev s)).
  Definition space_rightmost_at_start (s : str) : nat := blen (take_spaces s).

  (** [&sentence[a..b]]. *)
  Definition str_slice (s : str) (a b : nat) : res unit str := of_option (str_get s a b).

  (** The loop and the end of [find_matches], added_vocabulary.rs:444-487. *)
  Fixpoint find_loop (av : added_vocab) (s : str) (ms : list (nat * nat * N)) (from : nat)
    : res unit (list (option N * (nat * nat))) :=
    match ms with
    | [] => Ok (if from =? blen s then [] else [(None, (from, blen s))])
    | (st, en, i) :: ms' =>
        let! t := of_option (aget N.eqb i (av_map_r av)) in
        if av_encode_special av && str_mem (at_content t) (av_special av) then find_loop av s ms' from
        else
          let! skip :=
            (if at_single_word t then
               let! before := str_slice s 0 st in
               let! after := str_slice s en (blen s) in
               Ok (negb ((st =? 0) || negb (ends_with_word before)) ||
                   negb ((en =? blen s) || negb (starts_with_word after)))
             else Ok false) in
          if skip then find_loop av s ms' from
          else
            let! start :=
              (if at_lstrip t then
                 let! before := str_slice s 0 st in
                 Ok (Nat.max (space_leftmost_at_end before) from)
               else Ok st) in
            let! stop :=
              (if at_rstrip t then
                 let! after := str_slice s en (blen s) in
                 Ok (en + space_rightmost_at_start after)
               else Ok en) in
            let! rest := find_loop av s ms' stop in
            Ok ((if from <? start then [(None, (from, start))] else []) ++ (Some i, (start, stop)) :: rest)
    end.

  (** [find_matches], added_vocabulary.rs:430-490. *)
  Definition find_matches (av : added_vocab) (s : str) (trie : option (list (str * N)))
    : res unit (list (option N * (nat * nat))) :=
    if is_nil s then Ok [(None, (0, 0))]
    else match trie with
         | None => Ok [(None, (0, blen s))]
         | Some pats => find_loop av s (leftmost_find pats 0 0 s) 0
         end.

  (** [split_with_indices], added_vocabulary.rs:495-519; [.expect("...")] on a
      refused slice is a panic. *)
  Definition token_split (ns : nstring) (m : option N * (nat * nat)) : res unit split :=
    match n_slice ns (rn (fst (snd m)) (snd (snd m))) with
    | Ok sl =>
        Ok (mkSplit sl (match fst m with
                        | Some i => Some [mkTok i (n_normalized sl) (0, blen (n_normalized sl))]
                        | None => None
                        end))
    | _ => Panic
    end.

  Definition split_with_indices (av : added_vocab) (trie : option (list (str * N))) (ns : nstring)
    : res unit (list split) :=
    let! ms := find_matches av (n_normalized ns) trie in map_res (token_split ns) ms.

  (** [extract_and_normalize], added_vocabulary.rs:527-576.  The result of the
      normalizer is ignored ([normalizer.map(|n| n.normalize(...))]), so an
      error leaves the string as the normalizer left it: [norm] is total. *)
  Definition extract_and_normalize (av : added_vocab) (norm : nstring -> nstring) (s : str) : res unit pretok :=
    let! pt := pt_split (fun _ ns => split_with_indices av (av_trie av) ns) (pre_from s) in
    pt_split (fun _ ns => split_with_indices av (av_ntrie av) (norm ns)) pt.
End matching.

(** ** Vocabulary functions of the tokenizer *)
(** [get_vocab], mod.rs:703-717. *)
Definition get_vocab (m : model_vocab) (av : added_vocab) (with_added : bool) : list (str * N) :=
  if with_added then fold_left (fun acc ti => aset str_eqb (fst ti) (snd ti) acc) (av_map av) (mv_vocab m)
  else mv_vocab m.

(** [get_vocab_size], mod.rs:725-737; [usize] subtraction would panic. *)
Definition get_vocab_size (m : model_vocab) (av : added_vocab) (with_added : bool) : res unit nat :=
  if with_added then
    let overlapping := length (filter (fun ti => match mv_token_to_id m (fst ti) with Some _ => true | None => false end) (av_map av)) in
    if overlapping <=? mv_size m + length (av_map av) then Ok (mv_size m + length (av_map av) - overlapping) else Panic
  else Ok (mv_size m).

(** [token_to_id], [id_to_token], mod.rs:740-749. *)
Definition tk_token_to_id (m : model_vocab) (av : added_vocab) (t : str) : option N := av_token_to_id av m t.
Definition tk_id_to_token (m : model_vocab) (av : added_vocab) (i : N) : option str :=
  match av_simple_id_to_token av i with Some t => Some t | None => mv_id_to_token m i end.

(** The tokens given to the decoder, mod.rs:936-946. *)
Definition decode_tokens (m : model_vocab) (av : added_vocab) (skip : bool) (ids : list N) : list str :=
  flat_map (fun i => match tk_id_to_token m av i with
                     | Some t => if negb skip || negb (av_is_special av t) then [t] else []
                     | None => []
                     end) ids.

(** [tokens.join(" ")]. *)
Fixpoint join_space (l : list str) : str :=
  match l with
  | [] => []
  | [t] => t
  | t :: l' => t ++ 32%N :: join_space l'
  end.

(** [decode], mod.rs:935-953; the decoder is any function. *)
Definition decode {E} (m : model_vocab) (av : added_vocab) (decoder : option (list str -> res E str))
           (skip : bool) (ids : list N) : res E str :=
  let ts := decode_tokens m av skip ids in
  match decoder with Some d => d ts | None => Ok (join_space ts) end.

(** ** Serialisation of the added tokens *)
(** Insertion sort by id: [sort_unstable_by_key(|o| o.id)], added_vocabulary.rs:612. *)
Fixpoint insert_by_id (x : N * added_token) (l : list (N * added_token)) : list (N * added_token) :=
  match l with
  | [] => [x]
  | y :: l' => if N.leb (fst x) (fst y) then x :: l else y :: insert_by_id x l'
  end.
Definition sort_by_id (l : list (N * added_token)) : list (N * added_token) := fold_right insert_by_id [] l.

(** [Serialize for AddedVocabulary], added_vocabulary.rs:598-622: the saved list. *)
Definition av_save (av : added_vocab) : list (N * added_token) := sort_by_id (av_map_r av).

(** Loading, serialization.rs:146-168: the saved ids are only compared (a
    warning), the tokens are added in file order to a new vocabulary. *)
Definition av_load (build : list (str * N) -> bool) (m : model_vocab) (norm : option (str -> option str))
           (saved : list (N * added_token)) : added_vocab * option nat :=
  add_tokens build m norm (map snd saved) av_new.
