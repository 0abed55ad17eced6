(** Model of templates written as text.
    Source: /repo/tokenizers/src/processors/template.rs:101-320, 525-541. *)
From Verif Require Import Base AMap EncodingModel ProcessorsModel.

(** [str::split(c)] of the core library: the texts between the separators, at least one. *)
Fixpoint split_on (sep : char) (cur s : str) : list str :=
  match s with
  | [] => [cur]
  | c :: s' => if N.eqb c sep then cur :: split_on sep [] s' else split_on sep (cur ++ [c]) s'
  end.

(** [u32::from_str] of the core library: an optional [+], then at least one digit; the
    products and sums are checked. *)
Fixpoint digits_u32 (acc : N) (s : str) : option N :=
  match s with
  | [] => Some acc
  | c :: s' =>
      if (48 <=? c)%N && (c <=? 57)%N then
        if (4294967295 <? acc * 10)%N then None
        else if (4294967295 <? acc * 10 + (c - 48))%N then None
        else digits_u32 (acc * 10 + (c - 48))%N s'
      else None
  end.
Definition parse_u32 (s : str) : option N :=
  match s with
  | [] => None
  | c :: s' => if N.eqb c 43 then (if is_nil s' then None else digits_u32 0 s') else digits_u32 0 s
  end.

(** [Piece::extract_id], template.rs:101-137. *)
Definition extract_id (s : str) : option piece :=
  match s with
  | 36%N :: rest =>
      match rest with
      | [] => Some (PSeq SeqA 0)
      | [65%N] | [97%N] => Some (PSeq SeqA 0)
      | [66%N] | [98%N] => Some (PSeq SeqB 0)
      | _ => match parse_u32 rest with Some n => Some (PSeq SeqA n) | None => None end
      end
  | _ => Some (PSpecial s 0)
  end.

(** [Piece::with_type_id], template.rs:139-144. *)
Definition with_type_id (p : piece) (n : N) : piece :=
  match p with PSeq s _ => PSeq s n | PSpecial name _ => PSpecial name n end.

(** [TryFrom<String> for Piece], template.rs:147-164 (167-173 is the same). *)
Definition piece_from (s : str) : res unit piece :=
  match split_on 58 [] s with
  | [id; ty] =>
      match parse_u32 ty with
      | None => Err tt
      | Some n => match extract_id id with None => Err tt | Some p => Ok (with_type_id p n) end
      end
  | [id] => match extract_id id with None => Err tt | Some p => Ok p end
  | _ => Err tt
  end.

(** [TryFrom<Vec<T>> for Template], template.rs:257-270: the first error wins. *)
Fixpoint template_from_pieces (l : list str) : res unit (list piece) :=
  match l with
  | [] => Ok []
  | s :: l' => let! p := piece_from s in let! ps := template_from_pieces l' in Ok (p :: ps)
  end.

(** [TryFrom<&str> for Template], template.rs:280-286 (272-278 is the same). *)
Definition template_from_text (s : str) : res unit (list piece) := template_from_pieces (split_on 32 [] s).

(** [From<Vec<T>> for Tokens], template.rs:298-310: collected in a hash map, so that
    the last of several with the same name stays. *)
Definition tokens_from (l : list (str * special)) : list (str * special) :=
  fold_left (fun m e => aset str_eqb (fst e) (snd e) m) l [].

(** The builder with [try_single], [try_pair] (the setters derived for template.rs:340-343)
    and [special_tokens], then [build]; [None]: the setter is not called. *)
Definition build_from_texts (single pair : option str) (specials : list (str * special)) : res unit template :=
  let read o := match o with None => Ok None | Some s => let! t := template_from_text s in Ok (Some t) end in
  let! sg := read single in
  let! pr := read pair in
  build (mkBuilder sg pr (Some (tokens_from specials))).

(** [Default for TemplateProcessing], template.rs:527-537; [None]: the unwrap panics. *)
Definition template_default : res unit template :=
  match template_from_text [36; 48]%N, template_from_text [36; 49]%N with
  | Ok sg, Ok pr => Ok (mkTemplate sg pr 0 0 [])
  | _, _ => Panic
  end.
