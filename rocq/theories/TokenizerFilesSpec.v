(** What a user expects of saving a tokenizer and loading it again. *)
From Coq Require Import String.
From Verif Require Import Base StrBytes AMap EncodingModel TruncPadModel BpeModel BpeSpec UnigramModel AddedModel AddedSpec TokenizerModel ModelFilesModel ModelFilesSpec ComponentFilesModel ComponentFilesSpec TokenizerFilesModel.

(** The tokenizers over a model, and the tokens that were added to them: a new one,
    then any calls of the setters and of [add_tokens] / [add_special_tokens] that
    succeed.  The truncation parameters are any (those [with_truncation] accepts, or
    others by [get_truncation_mut]). *)
Inductive made {W} (P : platform W) (m : @model W) : config W -> list added_token -> Prop :=
| md_new : made P m (tokenizer_new m) []
| md_normalizer g ts n g' : made P m g ts -> with_normalizer P g n = (g', true) -> made P m g' ts
| md_pre g ts p : made P m g ts -> made P m (with_pre_tokenizer g p) ts
| md_post g ts p : made P m g ts -> made P m (with_post_processor g p) ts
| md_decoder g ts d : made P m g ts -> made P m (with_decoder g d) ts
| md_truncation g ts t : made P m g ts -> made P m (put_truncation g t) ts
| md_padding g ts p : made P m g ts -> made P m (put_padding g p) ts
| md_add g ts more g' n : made P m g ts -> tokenizer_add P g more = (g', Some n) -> made P m g' (ts ++ more)
| md_encode_special g ts b : made P m g ts -> made P m (encode_special_tokens g b) ts.

(** What is expected of the external parts: the sorts sort, probabilities can be
    written, and the automaton builder refuses equal patterns and does not care for
    the order. *)
Record platform_ok {W} (P : platform W) : Prop := {
  po_rank : rank_sort (pf_by_rank P);
  po_key : key_sort (pf_by_key P);
  po_floats : floats_ok (pf_floats P);
  po_order : forall l l', Permutation l l' -> pf_build P l = true -> pf_build P l' = true;
  po_distinct : forall l, pf_build P l = true -> NoDup (map fst l) }.

(** The models: those that can be saved (ModelFilesSpec), with ids below the size,
    no merge given twice, no piece twice. *)
Definition model_sound {W} (P : platform W) (m : @model W) : Prop :=
  savable (pf_arith P) (pf_floats P) m /\ AddedSpec.dense (model_vocabulary m) /\
  match m with
  | MBpe b => exists vocab merges prefix, built vocab merges prefix b /\ writable vocab /\ NoDup merges
  | MUnigram u => NoDup (map fst (u_vocab u))
  | _ => True
  end.

(** The components are such as can be made, and the numbers are of their types. *)
Definition when {T} (o : option T) (Q : T -> Prop) : Prop := match o with Some x => Q x | None => True end.
Definition parts_valid {W} (P : platform W) (g : config W) : Prop :=
  when (g_normalizer g) (norm_valid (pf_engines P)) /\ when (g_pre g) (pre_valid (pf_engines P)) /\
  when (g_post g) proc_valid /\ when (g_decoder g) (dec_valid (pf_engines P)) /\
  when (g_truncation g) (fun t => fits 64 (N.of_nat (tp_max_length t)) /\ fits 64 (N.of_nat (tp_stride t))) /\
  when (g_padding g) (fun p => fits 32 (pp_id p) /\ fits 32 (pp_type_id p) /\ when (pp_multiple p) (fun n => fits 64 (N.of_nat n)) /\
                               match pp_strategy p with Fixed n => fits 64 (N.of_nat n) | BatchLongest => True end) /\
  (forall i t, aget N.eqb i (av_map_r (g_added g)) = Some t -> fits 32 i).

(** Two tokenizers that no call can tell apart: encodings of every input, one by one
    or in batches, texts of every list of ids, tokens, ids, the vocabulary, the added
    tokens with their flags, the parameters. *)
Record same_answers {W} (P : platform W) (g g' : config W) : Prop := {
  sa_encode : forall ot input add, encode (runtime P g') ot input add = encode (runtime P g) ot input add;
  sa_batch : forall ot inputs add schedule, encode_batch (runtime P g') ot inputs add schedule = encode_batch (runtime P g) ot inputs add schedule;
  sa_decode : forall skip ids, decode_ids P g' skip ids = decode_ids P g skip ids;
  sa_token_to_id : forall t, tk_token_to_id (model_vocabulary (g_model g')) (g_added g') t = tk_token_to_id (model_vocabulary (g_model g)) (g_added g) t;
  sa_id_to_token : forall i, tk_id_to_token (model_vocabulary (g_model g')) (g_added g') i = tk_id_to_token (model_vocabulary (g_model g)) (g_added g) i;
  sa_vocab : forall with_added t, aget str_eqb t (get_vocab (model_vocabulary (g_model g')) (g_added g') with_added) =
                                  aget str_eqb t (get_vocab (model_vocabulary (g_model g)) (g_added g) with_added);
  sa_vocab_size : forall with_added, get_vocab_size (model_vocabulary (g_model g')) (g_added g') with_added = get_vocab_size (model_vocabulary (g_model g)) (g_added g) with_added;
  sa_added : forall i, aget N.eqb i (av_map_r (g_added g')) = aget N.eqb i (av_map_r (g_added g));
  sa_special : forall t, av_is_special (g_added g') t = av_is_special (g_added g) t;
  sa_truncation : g_truncation g' = g_truncation g;
  sa_padding : g_padding g' = g_padding g }.

(** The fields of the file of a tokenizer. *)
Definition field_names : list str :=
  map key ["version"; "truncation"; "padding"; "added_tokens"; "normalizer"; "pre_tokenizer"; "post_processor"; "decoder"; "model"]%string.
(** The values that can make the loader panic: a normalizer of type "Precompiled"
    somewhere in "normalizer", a field "merges" in "model". *)
Definition load_panic {W} (k : str) (v : json W) : Prop :=
  (k = key "normalizer" /\ mentions "Precompiled" v) \/ (k = key "model" /\ exists l, v = JObj l /\ In (key "merges") (map fst l)).
