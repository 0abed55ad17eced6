(** What a user expects of files that are saved, loaded and saved again. *)
From Coq Require Import String.
From Coq Require Import Sorting.Permutation.
From Verif Require Import Base StrBytes AMap EncodingModel BpeModel BpeSpec WordPieceModel UnigramModel AddedModel AddedSpec ProcessorsModel ModelFilesModel ModelFilesSpec ComponentFilesModel ComponentFilesSpec TokenizerFilesModel TokenizerFilesSpec.

(** The order of a [BTreeMap] depends on nothing but its entries. *)
Definition order_blind {V} (by_key : list (str * V) -> list (str * V)) : Prop :=
  forall l l', NoDup (map fst l) -> Permutation l l' -> by_key l' = by_key l.

(** The same model, whose hash maps have their entries in any order.  (The pieces of
    a Unigram model are a list.) *)
Inductive shuffled_model {W} : @model W -> @model W -> Prop :=
| sh_bpe v r m d u p s f b i v' r' m' : Permutation v v' -> Permutation r r' -> Permutation m m' ->
    shuffled_model (MBpe (mkBpe v r m d u p s f b i)) (MBpe (mkBpe v' r' m' d u p s f b i))
| sh_wordpiece m m' : Permutation (w_vocab m) (w_vocab m') -> w_unk m' = w_unk m -> w_prefix m' = w_prefix m -> w_max m' = w_max m ->
    shuffled_model (MWordPiece m) (MWordPiece m')
| sh_wordlevel m m' : Permutation (l_vocab m) (l_vocab m') -> l_unk m' = l_unk m -> shuffled_model (MWordLevel m) (MWordLevel m')
| sh_unigram m : shuffled_model (MUnigram m) (MUnigram m).

(** The same tokenizer, in the same sense.  ([same_proc] is the same for the
    post-processors.) *)
Record shuffled {W} (g g' : config W) : Prop := {
  su_normalizer : g_normalizer g' = g_normalizer g;
  su_pre : g_pre g' = g_pre g;
  su_model : shuffled_model (g_model g) (g_model g');
  su_post : match g_post g, g_post g' with Some c, Some c' => same_proc c c' | None, None => True | _, _ => False end;
  su_decoder : g_decoder g' = g_decoder g;
  su_added : Permutation (av_map_r (g_added g)) (av_map_r (g_added g'));
  su_truncation : g_truncation g' = g_truncation g;
  su_padding : g_padding g' = g_padding g }.

(** No id for two tokens, no rank for two merges, no key twice. *)
Definition unambiguous {W} (m : @model W) : Prop :=
  match m with
  | MBpe m => NoDup (map fst (b_vocab_r m)) /\ NoDup (map fst (b_merges m)) /\ NoDup (map (fun e => fst (snd e)) (b_merges m))
  | MWordPiece m => NoDup (map snd (w_vocab m))
  | MWordLevel m => NoDup (map snd (l_vocab m))
  | MUnigram m => True
  end.

(** The added tokens that a file lists. *)
Definition file_token {W} (j : json W) (t : added_token) : Prop :=
  exists l items v i, j = JObj l /\ In (key "added_tokens", JArr items) l /\ In v items /\ as_added v = Ok (i, t).
