(** Model of the BPE model: construction, words, tokens.
    Source: /repo/tokenizers/src/models/bpe/model.rs.  Reading and writing files
    is not here; [u32] casts of ranks are not truncated. *)
From Verif Require Import Base StrBytes Utf8 AMap EncodingModel BpeWordModel.

(** The probability [dropout: Option<f32>], by the only tests done on it:
    [0.0..=1.0] (model.rs:211-215) and [== 0.0] (model.rs:605). *)
Inductive dropout_value := DNone | DZero | DPositive | DOutside.

(** [enum Error], mod.rs:12-36, without the strings carried. *)
Inductive bpe_error := EInvalidDropout | EMergeToken | EUnkToken.

(** [struct BPE], model.rs:289-315 without its cache (see CacheModel).  The
    hash maps are association lists; the order of a list stands for the
    arbitrary order of iteration. *)
Record bpe := mkBpe {
  b_vocab : list (str * N); b_vocab_r : list (N * str); b_merges : list ((N * N) * (N * N));
  b_dropout : dropout_value; b_unk : option str;
  b_prefix : option str; b_suffix : option str;
  b_fuse : bool; b_fallback : bool; b_ignore_merges : bool }.

Definition pair_eqb (a b : N * N) : bool := N.eqb (fst a) (fst b) && N.eqb (snd a) (snd b).

(** [merges.get(&pair)]. *)
Definition b_lookup (m : bpe) (a b : N) : option (N * N) := aget pair_eqb (a, b) (b_merges m).

(** [vocab.get]. *)
Definition b_id (m : bpe) (t : str) : option N := aget str_eqb t (b_vocab m).
Definition b_token (m : bpe) (i : N) : option str := aget N.eqb i (b_vocab_r m).

(** [vocab.iter().map(|(k, v)| (v, k)).collect()], model.rs:224-235. *)
Definition reverse_vocab (vocab : list (str * N)) : list (N * str) :=
  fold_left (fun acc ti => aset N.eqb (snd ti) (fst ti) acc) vocab [].

Definition max_blen (vocab : list (str * N)) : nat := fold_left (fun acc ti => Nat.max acc (blen (fst ti))) vocab 0.

Definition opt_blen (o : option str) : nat := match o with Some p => blen p | None => 0 end.

(** One merge of [build], model.rs:254-271.  [b.len() - prefix_len] and the
    write to the buffer (of [max_len] bytes) can panic.  A new token that is
    not valid UTF-8 ([prefix_len] inside a character of [b]) is not in the
    vocabulary. *)
Definition build_merge (vocab : list (str * N)) (prefix_len max_len : nat) (i : nat) (ab : str * str)
  : res bpe_error ((N * N) * (N * N)) :=
  let '(a, b) := ab in
  match aget str_eqb a vocab with
  | None => Err EMergeToken
  | Some a_id =>
      match aget str_eqb b vocab with
      | None => Err EMergeToken
      | Some b_id =>
          if blen b <? prefix_len then Panic
          else if max_len <? blen a + (blen b - prefix_len) then Panic
          else
            match str_get b prefix_len (blen b) with
            | None => Err EMergeToken
            | Some rest =>
                match aget str_eqb (a ++ rest) vocab with
                | None => Err EMergeToken
                | Some new_id => Ok ((a_id, b_id), (N.of_nat i, new_id))
                end
            end
      end
  end.

Fixpoint build_merges (vocab : list (str * N)) (prefix_len max_len : nat) (i : nat) (merges : list (str * str))
         (acc : list ((N * N) * (N * N))) : res bpe_error (list ((N * N) * (N * N))) :=
  match merges with
  | [] => Ok acc
  | ab :: merges' =>
      let! kv := build_merge vocab prefix_len max_len i ab in
      build_merges vocab prefix_len max_len (i + 1) merges' (aset pair_eqb (fst kv) (snd kv) acc)
  end.

(** [BpeBuilder::build], model.rs:207-287, from a vocabulary and merges. *)
Definition bpe_build (vocab : list (str * N)) (merges : list (str * str)) (dropout : dropout_value)
           (unk prefix suffix : option str) (fuse fallback ignore : bool) : res bpe_error bpe :=
  match dropout with
  | DOutside => Err EInvalidDropout
  | _ =>
      let! mm := build_merges vocab (opt_blen prefix) (max_blen vocab) 0 merges [] in
      Ok (mkBpe vocab (reverse_vocab vocab) mm dropout unk prefix suffix fuse fallback ignore)
  end.

(** [format!("<{b:#04X}>")], model.rs:492. *)
Definition hex_digit (d : N) : N := if N.ltb d 10 then (48 + d)%N else (55 + d)%N.
Definition byte_token (b : N) : str := [60; 48; 120; hex_digit (b / 16); hex_digit (b mod 16); 62]%N.

Fixpoint map_opt {A B} (f : A -> option B) (l : list A) : option (list B) :=
  match l with
  | [] => Some []
  | a :: l' => match f a with
               | None => None
               | Some b => option_map (cons b) (map_opt f l')
               end
  end.

(** The text looked up for a character, model.rs:463-481. *)
Definition decorate (m : bpe) (is_first is_last : bool) (s : str) : str :=
  let s1 := if is_first then s else match b_prefix m with Some p => p ++ s | None => s end in
  if is_last then match b_suffix m with Some p => s1 ++ p | None => s1 end else s1.

(** The id of the unknown token, [ok_or_else(UnkTokenOutOfVocabulary)]. *)
Definition unk_id (m : bpe) (t : str) : res bpe_error N :=
  match b_id m t with Some i => Ok i | None => Err EUnkToken end.

(** The loop of [merge_word], model.rs:454-527; [first] is [i == 0]. *)
Fixpoint word_loop (m : bpe) (first : bool) (cs : str) (w : word) (unk : option (N * nat))
  : res bpe_error (word * option (N * nat)) :=
  match cs with
  | [] => Ok (w, unk)
  | c :: cs' =>
      let s := decorate m first (is_nil cs') [c] in
      let byte_len := len_utf8 c in
      match b_id m s with
      | Some id =>
          let w' := match unk with Some (ui, ul) => word_add w ui ul | None => w end in
          word_loop m false cs' (word_add w' id byte_len) None
      | None =>
          let bytes := if b_fallback m then map_opt (fun b => b_id m (byte_token b)) (encode_utf8 s) else None in
          match bytes with
          | Some tokens => word_loop m false cs' (fold_left (fun w t => word_add w t 1) tokens w) unk
          | None =>
              match b_unk m with
              | None => word_loop m false cs' w unk
              | Some ut =>
                  match unk, b_fuse m with
                  | Some (ui, ul), true => word_loop m false cs' w (Some (ui, ul + byte_len))
                  | Some (ui, ul), false =>
                      let! i := unk_id m ut in word_loop m false cs' (word_add w ui ul) (Some (i, byte_len))
                  | None, _ => let! i := unk_id m ut in word_loop m false cs' w (Some (i, byte_len))
                  end
              end
          end
      end
  end.

Section with_heap.
  Context (pop : list merge -> option (merge * list merge)).

  (** [merge_word], model.rs:454-536. *)
  Definition merge_word (m : bpe) (draws : nat -> bool) (s : str) : res bpe_error word :=
    let! (w, unk) := word_loop m true s [] None in
    let w' := match unk with Some (ui, ul) => word_add w ui ul | None => w end in
    match merge_all pop (b_lookup m) draws w' with
    | Ok out => Ok out
    | _ => Panic
    end.

  (** [word_to_tokens], model.rs:538-542; [vocab_r[&id]] can panic. *)
  Definition word_to_tokens (m : bpe) (w : word) : res bpe_error (list token) :=
    map_res (fun x : N * offsets_t => let! t := of_option (b_token m (fst x)) in Ok (mkTok (fst x) t (snd x)))
            (combine (get_chars w) (get_offsets 0 w)).

  Definition no_draw (_ : nat) : bool := false.

  (** [tokenize_with_cache] without its cache, model.rs:544-573. *)
  Definition tokenize_plain (m : bpe) (s : str) : res bpe_error (list token) :=
    match (if b_ignore_merges m then b_id m s else None) with
    | Some id => Ok [mkTok id s (0, blen s)]
    | None => let! w := merge_word m no_draw s in word_to_tokens m w
    end.

  (** [Model::tokenize], model.rs:600-611. *)
  Definition bpe_tokenize (m : bpe) (draws : nat -> bool) (s : str) : res bpe_error (list token) :=
    if is_nil s then Ok []
    else match b_dropout m with
         | DNone | DZero => tokenize_plain m s
         | _ => let! w := merge_word m draws s in word_to_tokens m w
         end.
End with_heap.
