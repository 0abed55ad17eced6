(** Model of the post-processors.
    Sources: /repo/tokenizers/src/processors/{bert,roberta,template,sequence,mod}.rs,
    the [PostProcessor] impl of pre_tokenizers/byte_level.rs and the trait's
    default methods in tokenizer/mod.rs. *)
From Verif Require Import Base AMap EncodingModel ByteLevelModel.

(** ** BERT and RoBERTa *)

(** A special token with its id: [(String, u32)]. *)
Notation tok_id := (prod (list N) N) (only parsing).

(** bert.rs:65-80 and 95-110: [CLS] tokens [SEP], the masks being rebuilt and the
    recorded range excluding the two added tokens.  [ty] is the type-id array
    computed by the caller. *)
Definition surround (first last : tok_id) (s : nat) (ty : list N) (e : encoding)
           (over : list encoding) : encoding :=
  let ids' := [snd first] ++ ids e ++ [snd last] in
  mkEnc ids' ty
        ([fst first] ++ tokens e ++ [fst last])
        ([None] ++ words e ++ [None])
        ([(0, 0)] ++ offsets e ++ [(0, 0)])
        ([1%N] ++ repeat 0%N (length (ids e)) ++ [1%N])
        (repeat 1%N (length ids'))
        over
        [(s, (1, length ids' - 1))].

(** bert.rs:64-129: the first encoding. *)
Definition bert_first (sep cls : tok_id) (e : encoding) : encoding :=
  let one e over := surround cls sep 0 ([0%N] ++ type_ids e ++ [0%N]) e over in
  one e (map (fun o => one o []) (overflowing e)).

(** bert.rs:131-144 and 156-169: tokens [SEP].  The special-token mask is as long
    as [type_ids]. *)
Definition bert_tail (sep : tok_id) (e : encoding) (over : list encoding) : encoding :=
  let ids' := ids e ++ [snd sep] in
  mkEnc ids' (type_ids e ++ [1%N]) (tokens e ++ [fst sep]) (words e ++ [None])
        (offsets e ++ [(0, 0)])
        (repeat 0%N (length (type_ids e)) ++ [1%N])
        (repeat 1%N (length ids'))
        over
        [(1, (0, length ids' - 1))].

(** bert.rs:130-187: any further encoding. *)
Definition bert_other (sep : tok_id) (e : encoding) : encoding :=
  bert_tail sep e (map (fun o => bert_tail sep o []) (overflowing e)).

Definition map_first {A B} (f g : A -> B) (l : list A) : list B :=
  match l with [] => [] | x :: l' => f x :: map g l' end.

(** [BertProcessing::process_encodings], bert.rs:51-192. *)
Definition bert_process (sep cls : tok_id) (es : list encoding) (add : bool) : list encoding :=
  if add then map_first (bert_first sep cls) (bert_other sep) es else es.

(** [process_offsets] on an encoding and on its overflowing ones,
    roberta.rs:71-79 and byte_level.rs:185-192. *)
Definition trim_all (is_ws : char -> bool) (aps : bool) (e : encoding) : encoding :=
  let e' := process_offsets is_ws aps e in
  set_overflowing e' (map (process_offsets is_ws aps) (overflowing e')).

(** roberta.rs:94-159: the first encoding; the overflowing ones get type id 0. *)
Definition roberta_first (sep cls : tok_id) (e : encoding) : encoding :=
  surround cls sep 0 ([0%N] ++ type_ids e ++ [0%N]) e
    (map (fun o => surround cls sep 0 (repeat 0%N (length (ids o) + 2)) o []) (overflowing e)).

(** roberta.rs:160-230: any further encoding.  The special-token mask is as long
    as [type_ids]. *)
Definition roberta_tail (sep : tok_id) (e : encoding) (over : list encoding) : encoding :=
  let ids' := [snd sep] ++ ids e ++ [snd sep] in
  mkEnc ids' (repeat 0%N (length (ids e) + 2))
        ([fst sep] ++ tokens e ++ [fst sep])
        ([None] ++ words e ++ [None])
        ([(0, 0)] ++ offsets e ++ [(0, 0)])
        ([1%N] ++ repeat 0%N (length (type_ids e)) ++ [1%N])
        (repeat 1%N (length ids'))
        over
        [(1, (1, length ids' - 1))].

Definition roberta_other (sep : tok_id) (e : encoding) : encoding :=
  roberta_tail sep e (map (fun o => roberta_tail sep o []) (overflowing e)).

(** [RobertaProcessing::process_encodings], roberta.rs:66-236. *)
Definition roberta_process (is_ws : char -> bool) (sep cls : tok_id) (trim aps : bool)
           (es : list encoding) (add : bool) : list encoding :=
  let es := if trim then map (trim_all is_ws aps) es else es in
  let es := map (fun e => set_type_ids e (repeat 0%N (enc_len e))) es in
  if add then map_first (roberta_first sep cls) (roberta_other sep) es else es.

(** ** ByteLevel as a post-processor, byte_level.rs:175-200 *)
Definition mapi {A B} (f : nat -> A -> B) (l : list A) : list B :=
  map (fun p => f (fst p) (snd p)) (combine (seq 0 (length l)) l).

Definition byte_level_process (is_ws : char -> bool) (trim aps : bool)
           (es : list encoding) : list encoding :=
  let es := if trim then map (trim_all is_ws aps) es else es in
  mapi (fun i e => set_sequence_id e i) es.

(** ** Templates, template.rs *)

(** [Sequence] and [Piece], template.rs:67-99. *)
Inductive tseq := SeqA | SeqB.
Inductive piece :=
| PSeq (s : tseq) (type_id : N)
| PSpecial (name : str) (type_id : N).

(** [SpecialToken], template.rs:193-200, without its [id] field, which is the key
    under which [Tokens] stores it. *)
Record special := mkSpecial { sp_ids : list N; sp_tokens : list str }.

(** [TemplateProcessing], template.rs:336-352. *)
Record template := mkTemplate {
  tm_single : list piece;
  tm_pair : list piece;
  tm_added_single : nat;
  tm_added_pair : nat;
  tm_special : list (str * special)
}.

Definition get_special (name : str) (m : list (str * special)) : option special :=
  aget str_eqb name m.

(** [SpecialToken::new], template.rs:228-234. *)
Definition special_new (i : list N) (t : list str) : res unit special :=
  if length i =? length t then Ok (mkSpecial i t) else Err tt.

(** [From<(String, u32)> for SpecialToken], template.rs:202-210. *)
Definition special_single (t : tok_id) : str * special := (fst t, mkSpecial [snd t] [fst t]).

(** [count_added], template.rs:443-454. *)
Definition count_added (tpl : list piece) (m : option (list (str * special))) : nat :=
  list_sum (map (fun p => match p with
                          | PSeq _ _ => 0
                          | PSpecial name _ =>
                              match m with
                              | None => 0
                              | Some m => match get_special name m with
                                          | None => 0
                                          | Some s => length (sp_ids s)
                                          end
                              end
                          end) tpl).

(** [TemplateProcessingBuilder] (derived by [derive_builder], template.rs:336-352):
    each field may have been set or not. *)
Record template_builder := mkBuilder {
  tb_single : option (list piece);
  tb_pair : option (list piece);
  tb_special : option (list (str * special))
}.

(** [default_added], template.rs:457-466. *)
Definition default_added (b : template_builder) (is_single : bool) : nat :=
  match (if is_single then tb_single b else tb_pair b) with
  | None => 0
  | Some t => count_added t (tb_special b)
  end.

Definition is_seq (s : tseq) (p : piece) : bool :=
  match p, s with
  | PSeq SeqA _, SeqA | PSeq SeqB _, SeqB => true
  | _, _ => false
  end.

(** [validate], template.rs:468-524. *)
Definition validate (b : template_builder) : res unit unit :=
  let pair_has_both := match tb_pair b with
                       | None => true
                       | Some p => existsb (is_seq SeqA) p && existsb (is_seq SeqB) p
                       end in
  if negb pair_has_both then Err tt
  else
    let exists_ name := match tb_special b with
                        | None => false
                        | Some m => match get_special name m with Some _ => true | None => false end
                        end in
    let pieces o := match o with None => [] | Some t => t end in
    if forallb (fun p => match p with PSeq _ _ => true | PSpecial name _ => exists_ name end)
               (pieces (tb_single b) ++ pieces (tb_pair b))
    then Ok tt else Err tt.

(** [build] (derived): validate, then fill in the defaults of template.rs:340-352. *)
Definition build (b : template_builder) : res unit template :=
  let! _ := validate b in
  Ok (mkTemplate
        (match tb_single b with Some t => t | None => [PSeq SeqA 0] end)
        (match tb_pair b with Some t => t | None => [PSeq SeqA 0; PSeq SeqB 1] end)
        (default_added b true) (default_added b false)
        (match tb_special b with Some m => m | None => [] end)).

(** [From<TemplateProcessingDeserializer>], template.rs:428-440: no validation. *)
Definition deserialize (single pair : list piece) (m : list (str * special)) : template :=
  mkTemplate single pair (count_added single (Some m)) (count_added pair (Some m)) m.

(** [set_single], template.rs:361-363 (the setters do not touch the counts). *)
Definition set_single (t : template) (single : list piece) : template :=
  mkTemplate single (tm_pair t) (tm_added_single t) (tm_added_pair t) (tm_special t).

Definition seq_index (s : tseq) : nat := match s with SeqA => 0 | SeqB => 1 end.

Fixpoint update {A} (l : list A) (i : nat) (x : A) : list A :=
  match l, i with
  | [], _ => []
  | _ :: l', 0 => x :: l'
  | y :: l', S i' => y :: update l' i' x
  end.

(** template.rs:562-580: the encoding of a special token. *)
Definition special_encoding (s : special) (ty : N) : encoding :=
  let n := length (sp_ids s) in
  mkEnc (sp_ids s) (repeat ty n) (sp_tokens s) (repeat None n) (repeat (0, 0) n)
        (repeat 1%N n) (repeat 1%N n) [] [].

(** [apply_template], template.rs:544-589: the encodings are updated in place, so
    they are threaded through the pieces. [encodings[i]] and
    [special_tokens.0[id]] panic when absent. *)
Fixpoint apply_template (m : list (str * special)) (tpl : list piece) (es : list encoding)
         (add : bool) : res unit (list encoding) :=
  match tpl with
  | [] => Ok []
  | PSeq s ty :: rest =>
      let i := seq_index s in
      let! e := of_option (nth_error es i) in
      let e := set_sequence_id (set_type_ids e (repeat ty (enc_len e))) i in
      let! out := apply_template m rest (update es i e) add in
      Ok (e :: out)
  | PSpecial name ty :: rest =>
      if add then
        let! s := of_option (get_special name m) in
        let! out := apply_template m rest es add in
        Ok (special_encoding s ty :: out)
      else apply_template m rest es add
  end.

(** [TemplateProcessing::process_encodings], template.rs:655-686; the [todo!()]
    of line 681 panics. *)
Definition template_process (t : template) (es : list encoding) (add : bool)
  : res unit (list encoding) :=
  match es with
  | [_] => apply_template (tm_special t) (tm_single t) es add
  | [_; _] => apply_template (tm_special t) (tm_pair t) es add
  | _ => Panic
  end.

(** ** The wrapper and sequences, processors/mod.rs:20-53, sequence.rs *)
Inductive processor :=
| PBert (sep cls : tok_id)
| PRoberta (sep cls : tok_id) (trim_offsets add_prefix_space : bool)
| PByteLevel (trim_offsets add_prefix_space : bool)
| PTemplate (t : template)
| PSequence (ps : list processor).

(** [added_tokens]: bert.rs:43-49, roberta.rs:58-64, byte_level.rs:176-178,
    template.rs:647-653, sequence.rs:50-55. *)
Fixpoint added_tokens (p : processor) (is_pair : bool) : nat :=
  match p with
  | PBert _ _ => if is_pair then 3 else 2
  | PRoberta _ _ _ _ => if is_pair then 4 else 2
  | PByteLevel _ _ => 0
  | PTemplate t => if is_pair then tm_added_pair t else tm_added_single t
  | PSequence ps => list_sum (map (fun p => added_tokens p is_pair) ps)
  end.

(** [process_encodings] of each processor; [PSequence] is sequence.rs:57-66. *)
Fixpoint process_encodings (is_ws : char -> bool) (p : processor) (es : list encoding)
         (add : bool) : res unit (list encoding) :=
  match p with
  | PBert sep cls => Ok (bert_process sep cls es add)
  | PRoberta sep cls trim aps => Ok (roberta_process is_ws sep cls trim aps es add)
  | PByteLevel trim aps => Ok (byte_level_process is_ws trim aps es)
  | PTemplate t => template_process t es add
  | PSequence ps =>
      (fix run ps es :=
         match ps with
         | [] => Ok es
         | p :: ps' => let! es' := process_encodings is_ws p es add in run ps' es'
         end) ps es
  end.

(** tokenizer/mod.rs:132-144: the preparation of the encodings. *)
Definition prepare (i : nat) (e : encoding) : encoding :=
  let e := set_sequence_id e i in
  let e := set_overflowing e (map (fun o => set_sequence_id o i) (overflowing e)) in
  set_type_ids e (repeat (N.of_nat i) (enc_len e)).

(** [PostProcessor::process], tokenizer/mod.rs:126-149. *)
Definition process (is_ws : char -> bool) (p : processor) (e : encoding)
           (pair : option encoding) (add : bool) : res unit encoding :=
  let es := match pair with Some e2 => [e; e2] | None => [e] end in
  let es := mapi prepare es in
  let! out := process_encodings is_ws p es add in
  Ok (merge false out).

(** [default_process], tokenizer/mod.rs:158-174. *)
Definition default_process (es : list encoding) : list encoding :=
  match es with
  | [_] => es
  | _ => [fold_left (fun acc ie => merge_with false acc (set_sequence_id (snd ie) (fst ie)))
            (combine (seq 0 (length es)) es) empty_enc]
  end.
