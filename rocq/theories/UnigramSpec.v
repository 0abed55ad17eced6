(** Segmentations of a sentence and their scores. *)
From Verif Require Import Base AMap Utf8 EncodingModel BpeModel UnigramModel.

Notation text_ok s := (Forall (fun c => is_scalar c = true) s).

(** What the comparison and the addition of scores must satisfy on the values
    [ok]: a total preorder that addition preserves.  This holds of [f64] without
    NaN, see UnigramProps.v. *)
Record score_laws {W} (A : arith W) (ok : W -> Prop) : Prop := {
  sl_zero : ok (a_zero A);
  sl_add : forall a b, ok a -> ok b -> ok (a_add A a b);
  sl_trans : forall a b c, ok a -> ok b -> ok c -> a_gtb A a b = false -> a_gtb A b c = false -> a_gtb A a c = false;
  sl_total : forall a b, ok a -> ok b -> a_gtb A a b = true -> a_gtb A b a = false;
  sl_mono : forall a b w, ok a -> ok b -> ok w -> a_gtb A a b = false -> a_gtb A (a_add A w a) (a_add A w b) = false;
  sl_comm : forall a b, ok a -> ok b -> a_add A a b = a_add A b a;
  sl_zero_order : forall a b, ok a -> ok b -> a_gtb A (a_add A a (a_zero A)) (a_add A b (a_zero A)) = a_gtb A a b }.

Section segmentations.
  Context {W : Type} (A : arith W).

  (** The id and score of a token: those of its last occurrence in the vocabulary. *)
  Definition last_entry (vocab : list (str * W)) (t : str) (id : N) (w : W) : Prop :=
    nth_error vocab (N.to_nat id) = Some (t, w) /\
    forall j u, N.to_nat id < j -> nth_error vocab j <> Some (t, u).

  (** A piece with its id and score: a token of the vocabulary, or one character
      that is no token, with the unknown id and score. *)
  Definition item_ok (m : unigram W) (it : str * N * W) : Prop :=
    let '(x, id, w) := it in
    (x <> [] /\ last_entry (u_vocab m) x id w) \/
    (exists c, x = [c] /\ ~ In [c] (map fst (u_vocab m)) /\ u_unk m = Some id /\ w = unk_score A m).

  Definition texts (seg : list (str * N * W)) : list str := map (fun it => fst (fst it)) seg.

  Definition segmentation (m : unigram W) (s : str) (seg : list (str * N * W)) : Prop :=
    Forall (item_ok m) seg /\ concat (texts seg) = s.

  (** Scores added from left to right. *)
  Definition total (seg : list (str * N * W)) : W := fold_left (fun acc it => a_add A (snd it) acc) seg (a_zero A).

  Definition best (m : unigram W) (s : str) (seg : list (str * N * W)) : Prop :=
    segmentation m s seg /\ forall seg', segmentation m s seg' -> a_gtb A (total seg') (total seg) = false.

  (** Adjacent marked pieces are joined. *)
  Definition marked_first (l : list (str * bool)) : bool := match l with (_, b) :: _ => b | [] => false end.
  Fixpoint join_marked (l : list (str * bool)) : list str :=
    match l with
    | [] => []
    | (x, false) :: l' => x :: join_marked l'
    | (x, true) :: l' =>
        match join_marked l' with
        | y :: ys => if marked_first l' then (x ++ y) :: ys else x :: y :: ys
        | [] => [x]
        end
    end.

  (** Pieces with the unknown id are marked, if unknown pieces are fused. *)
  Definition pieces_of (m : unigram W) (seg : list (str * N * W)) : list str :=
    join_marked (map (fun it => (fst (fst it), u_fuse m && match u_unk m with Some k => N.eqb (snd (fst it)) k | None => false end)) seg).

  (** A model made by [Unigram::from], whose public field [min_score] may have
      been assigned afterwards. *)
  Definition made (m : unigram W) : Prop :=
    exists vocab unk fb m0 lo, uni_from A vocab unk fb = Ok m0 /\ Forall (fun e => text_ok (fst e)) vocab /\
      m = mkUni (u_ids m0) (u_vocab m0) (u_trie m0) lo (u_unk m0) (u_bos m0) (u_eos m0) (u_fuse m0) (u_fallback m0).

  (** An item that is unknown: it has the unknown id. *)
  Definition unknown_item (m : unigram W) (it : str * N * W) : Prop := u_unk m = Some (snd (fst it)).

  (** [pieces] are the texts of [seg], where each maximal run of unknown items
      is one piece. *)
  Inductive fused (m : unigram W) : list (str * N * W) -> list str -> Prop :=
  | fused_nil : fused m [] []
  | fused_known : forall it seg pieces, ~ unknown_item m it -> fused m seg pieces -> fused m (it :: seg) (fst (fst it) :: pieces)
  | fused_run : forall us seg pieces, us <> [] -> Forall (unknown_item m) us -> (forall it, hd_error seg = Some it -> ~ unknown_item m it) ->
      fused m seg pieces -> fused m (us ++ seg) (concat (texts us) :: pieces).

  (** What the tokens of one piece are. *)
  Definition known_piece (m : unigram W) (x : str) (id : N) : Prop := exists w, last_entry (u_vocab m) x id w.
  Definition byte_piece (m : unigram W) (x : str) (ids : list N) : Prop :=
    u_fallback m = true /\ Forall2 (fun b id => known_piece m (byte_token b) id) (encode_utf8 x) ids.
  Definition piece_tokens (m : unigram W) (from : nat) (x : str) (toks : list token) : Prop :=
    let range := (from, from + blen x) in
    (exists id, known_piece m x id /\ toks = [mkTok id x range]) \/
    ((forall id, ~ known_piece m x id) /\
     ((exists ids, byte_piece m x ids /\ toks = map (fun e => mkTok (snd e) (byte_token (fst e)) range) (combine (encode_utf8 x) ids)) \/
      ((forall ids, ~ byte_piece m x ids) /\ exists id, u_unk m = Some id /\ toks = [mkTok id x range]))).
  Fixpoint pieces_tokens (m : unigram W) (from : nat) (pieces : list str) (toks : list token) : Prop :=
    match pieces with
    | [] => toks = []
    | x :: pieces' => exists here there, toks = here ++ there /\ piece_tokens m from x here /\ pieces_tokens m (from + blen x) pieces' there
    end.
End segmentations.
