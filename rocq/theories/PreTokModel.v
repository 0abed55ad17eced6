(** Model of [PreTokenizedString].
    Source: /repo/tokenizers/src/tokenizer/pre_tokenizer.rs. *)
From Verif Require Import Base StrBytes EncodingModel NormModel.

(** [OffsetType], pre_tokenizer.rs:8-13. *)
Inductive offset_type := OByte | OChar | ONone.

(** [struct Split], pre_tokenizer.rs:20-28. *)
Record split := mkSplit { sp_norm : nstring; sp_tokens : option (list token) }.

(** [struct PreTokenizedString], pre_tokenizer.rs:55-58. *)
Record pretok := mkPre { pt_original : str; pt_splits : list split }.

(** [From<NormalizedString>] and [From<&str>], pre_tokenizer.rs:303-326. *)
Definition pre_from_norm (ns : nstring) : pretok := mkPre (n_original ns) [mkSplit ns None].
Definition pre_from (s : str) : pretok := pre_from_norm (nfrom s).

Definition keep_nonempty (l : list split) : list split :=
  filter (fun sp => negb (is_nil (n_normalized (sp_norm sp)))) l.

(** [split], pre_tokenizer.rs:73-103.  [f] receives the index of the split; the
    splits it returns may carry tokens ([R: Into<Split>]). *)
Fixpoint split_loop {E} (f : nat -> nstring -> res E (list split)) (i : nat) (l : list split)
  : res E (list split) :=
  match l with
  | [] => Ok []
  | sp :: l' =>
      match sp_tokens sp with
      | Some _ => let! r := split_loop f (i + 1) l' in Ok (sp :: r)
      | None =>
          let! new := f i (sp_norm sp) in
          let! r := split_loop f (i + 1) l' in Ok (keep_nonempty new ++ r)
      end
  end.

Definition pt_split {E} (f : nat -> nstring -> res E (list split)) (pt : pretok) : res E pretok :=
  let! l := split_loop f 0 (pt_splits pt) in Ok (mkPre (pt_original pt) l).

(** [normalize], pre_tokenizer.rs:107-116. *)
Definition normalize_one {E} (f : nstring -> res E nstring) (sp : split) : res E split :=
  match sp_tokens sp with
  | Some _ => Ok sp
  | None => let! ns := f (sp_norm sp) in Ok (mkSplit ns None)
  end.

Definition pt_normalize {E} (f : nstring -> res E nstring) (pt : pretok) : res E pretok :=
  let! l := map_res (normalize_one f) (pt_splits pt) in Ok (mkPre (pt_original pt) l).

(** [tokenize], pre_tokenizer.rs:119-128. *)
Definition tokenize_one {E} (f : nstring -> res E (list token)) (sp : split) : res E split :=
  match sp_tokens sp with
  | Some _ => Ok sp
  | None => let! ts := f (sp_norm sp) in Ok (mkSplit (sp_norm sp) (Some ts))
  end.

Definition pt_tokenize {E} (f : nstring -> res E (list token)) (pt : pretok) : res E pretok :=
  let! l := map_res (tokenize_one f) (pt_splits pt) in Ok (mkPre (pt_original pt) l).

(** The loops of [tokenize_with_limit], pre_tokenizer.rs:131-189.  The [Right]
    loop returns the splits visited (all tokenised), i.e. [splits[..last_tokenized_idx]].
    The [Left] loop is the same over the reversed list. *)
Fixpoint limit_loop {E} (f : nstring -> res E (list token)) (max total : nat) (l : list split)
  : res E (list split) :=
  match l with
  | [] => Ok []
  | sp :: l' =>
      match sp_tokens sp with
      | Some ts => let! r := limit_loop f max (total + length ts) l' in Ok (sp :: r)
      | None =>
          let! ts := f (sp_norm sp) in
          let sp' := mkSplit (sp_norm sp) (Some ts) in
          if max <=? total + length ts then Ok [sp']
          else let! r := limit_loop f max (total + length ts) l' in Ok (sp' :: r)
      end
  end.

Definition pt_tokenize_with_limit {E} (f : nstring -> res E (list token)) (max : nat) (d : direction)
           (pt : pretok) : res E pretok :=
  match d with
  | DRight => let! l := limit_loop f max 0 (pt_splits pt) in Ok (mkPre (pt_original pt) l)
  | DLeft => let! l := limit_loop f max 0 (rev (pt_splits pt)) in Ok (mkPre (pt_original pt) (rev l))
  end.

(** [BytesToCharOffsetConverter::new], pre_tokenizer.rs:333-350: the entries of
    the hash map (keys are distinct byte positions). *)
Fixpoint converter_entries (b i : nat) (s : str) : list (nat * nat) :=
  match s with
  | [] => []
  | c :: s' => map (fun n => (b + n, i)) (seq 0 (len_utf8 c)) ++ converter_entries (b + len_utf8 c) (i + 1) s'
  end.

Fixpoint assoc_get (k : nat) (m : list (nat * nat)) : option nat :=
  match m with
  | [] => None
  | (k', v) :: m' => if k =? k' then Some v else assoc_get k m'
  end.

(** [BytesToCharOffsetConverter::convert], pre_tokenizer.rs:352-363.  [end - 1]
    underflows (a panic) when [end = 0] is not a key while [start] is. *)
Definition convert_chars (s : str) (o : offsets_t) : res unit (option offsets_t) :=
  let m := converter_entries 0 0 s in
  match assoc_get (fst o) m, assoc_get (snd o) m with
  | Some st, Some en => Ok (Some (st, en))
  | Some st, None =>
      if snd o =? 0 then Panic
      else let last := match assoc_get (snd o - 1) m with Some l => l | None => st + 1 end in
           Ok (Some (st, last + 1))
  | None, _ => Ok None
  end.

(** One token of [into_encoding], pre_tokenizer.rs:233-260. *)
Definition token_offsets (original : str) (chars : bool) (ns : nstring) (t : token) : res unit offsets_t :=
  let base := fst (offsets_original ns) in
  let o := match convert_offsets ns (rn (fst (t_offsets t)) (snd (t_offsets t))) with
           | None => t_offsets t
           | Some (a, b) => (base + a, base + b)
           end in
  if chars then
    let! c := convert_chars original o in
    Ok (match c with Some o' => o' | None => o end)
  else Ok o.

Definition token_row (original : str) (chars : bool) (word : N) (type_id : N) (ns : nstring) (t : token)
  : res unit enc_row :=
  let! o := token_offsets original chars ns t in
  Ok (t_id t, t_value t, o, Some word, type_id).

Fixpoint encoding_rows (original : str) (chars : bool) (word_idx : option N) (type_id : N) (i : nat)
         (l : list split) : res unit (list enc_row) :=
  match l with
  | [] => Ok []
  | sp :: l' =>
      let word := match word_idx with Some w => w | None => N.of_nat i end in
      let! ts := of_option (sp_tokens sp) in
      let! rows := map_res (token_row original chars word type_id (sp_norm sp)) ts in
      let! more := encoding_rows original chars word_idx type_id (i + 1) l' in
      Ok (rows ++ more)
  end.

Definition has_tokens (sp : split) : bool := match sp_tokens sp with Some _ => true | None => false end.

(** [into_encoding], pre_tokenizer.rs:198-263.  [split.tokens.unwrap()] is the
    panic of [of_option], excluded by the test before.  [Err tt] is the error
    "Split has not been tokenized".  [idx as u32] is not truncated here. *)
Definition into_encoding (pt : pretok) (word_idx : option N) (type_id : N) (ot : offset_type)
  : res unit encoding :=
  if is_nil (pt_splits pt) then Ok empty_enc
  else if negb (forallb has_tokens (pt_splits pt)) then Err tt
  else match ot with
       | ONone =>
           Ok (from_rows (map (fun t => (t_id t, [], (0, 0), None, 0%N))
                              (flat_map (fun sp => match sp_tokens sp with Some ts => ts | None => [] end)
                                        (pt_splits pt))))
       | _ =>
           let! rows := encoding_rows (pt_original pt) (match ot with OChar => true | _ => false end)
                                      word_idx type_id 0 (pt_splits pt) in
           Ok (from_rows rows)
       end.

(** [get_splits], pre_tokenizer.rs:268-300. *)
Inductive offset_ref := RefOriginal | RefNormalized.

Fixpoint get_splits_loop (original : str) (ref : offset_ref) (chars : bool) (offset : nat) (l : list split)
  : res unit (list (str * offsets_t * option (list token))) :=
  match l with
  | [] => Ok []
  | sp :: l' =>
      let len := n_len (sp_norm sp) in
      let '(o, offset') := match ref with
                           | RefOriginal => (offsets_original (sp_norm sp), offset)
                           | RefNormalized => ((offset, offset + len), offset + len)
                           end in
      let! o' := if chars then
                   let! c := convert_chars original o in
                   Ok (match c with Some x => x | None => o end)
                 else Ok o in
      let! more := get_splits_loop original ref chars offset' l' in
      Ok ((n_normalized (sp_norm sp), o', sp_tokens sp) :: more)
  end.

Definition get_splits (pt : pretok) (ref : offset_ref) (ot : offset_type) :=
  get_splits_loop (pt_original pt) ref (match ot with OChar => true | _ => false end) 0 (pt_splits pt).
