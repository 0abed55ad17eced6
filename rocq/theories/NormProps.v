(** Theorems about normalised strings and patterns: C12-C20, C61. *)
From Verif Require Import Base ListFacts StrBytes NormModel NormSpec NormProofs NormProofs2 NormProofs3
  NormProofs4 NormProofs5 NormProofs6 PatternModel PatternSpec PatternProofs.

(** Sample texts: "a", "b" are one byte, 233 (e acute) two, 8364 (euro) three. *)
Definition t_aeb : str := [97; 233; 98]%N.
Definition t_up (c : char) : str := if N.eqb c 223 then [83; 83]%N else [c].
Definition sp (c : char) : bool := N.eqb c 32.

(** ** C12 *)
Theorem C12_alignment_invariant : forall s ns, norm_reachable s ns -> aligned ns.
Proof. exact reachable_aligned. Qed.

Example C12_example :
  exists ns, norm_reachable t_aeb ns /\ n_normalized ns = [120; 97; 98]%N /\
             n_alignments ns = [(0, 1); (0, 1); (3, 4)].
Proof.
  eexists. split; [|split].
  - eapply norm_step with (op := MFilter (fun c => negb (N.eqb c 233)));
      [eapply norm_step with (op := MPrepend [120]%N); [apply norm_start|exact I|reflexivity]|exact I|reflexivity].
  - reflexivity.
  - reflexivity.
Qed.

(** The hypothesis [in_contract] is needed: changes that claim to replace more
    characters than the range holds break the order of the alignments. *)
Theorem C12_contract_needed_refuted :
  exists s op ns, apply_norm_op (nfrom s) op = Ok ns /\ ~ aligned ns.
Proof.
  exists t_aeb, (MTransformRange (rn 0 1) [(120%N, 0%Z); (121%N, 0%Z); (122%N, 1%Z)] 0).
  eexists. split; [vm_compute; reflexivity|]. intros H.
  pose proof (aligned_sorted _ H 1 2 1 3 0 1 ltac:(lia) eq_refl eq_refl). lia.
Qed.

(** ** C13 *)
Theorem C13_normalized_to_original : forall ns a b,
  aligned ns -> a < b -> b <= n_len ns ->
  exists s e,
    convert_offsets ns (rn a b) = Some (s, e) /\
    s <= e /\ is_boundary (n_original ns) s = true /\ is_boundary (n_original ns) e = true /\
    (exists y, nth_error (n_alignments ns) a = Some (s, y)) /\
    (exists x, nth_error (n_alignments ns) (b - 1) = Some (x, e)) /\
    (forall i x y, a <= i < b -> nth_error (n_alignments ns) i = Some (x, y) -> s <= x /\ y <= e).
Proof.
  intros ns a b H Hab Hb. destruct (convert_normalized_any ns a b H Hab Hb) as (s & e & y & x & E & E1 & E2).
  exists s, e. split; [exact E|].
  destruct (aligned_range _ H _ _ _ E1) as (R1 & R2 & _). destruct (aligned_range _ H _ _ _ E2) as (R3 & _ & R4).
  destruct (aligned_sorted _ H a (b - 1) _ _ _ _ ltac:(lia) E1 E2) as [S1 S2].
  split; [lia|]. split; [exact R2|]. split; [exact R4|]. split; [eauto|]. split; [eauto|].
  intros i x' y' Hi Ei.
  destruct (aligned_sorted _ H a i _ _ _ _ ltac:(lia) E1 Ei). destruct (aligned_sorted _ H i (b - 1) _ _ _ _ ltac:(lia) Ei E2). lia.
Qed.

(** From the original text: exactly the bytes coming from inside the range (the
    zero-width ones in the middle included); [None] when every byte ends after it. *)
Theorem C13_original_to_normalized : forall ns ts te,
  aligned ns -> ts < te ->
  match convert_offsets ns (ro ts te) with
  | Some (a, b) =>
      a <= b /\ is_boundary (n_normalized ns) a = true /\ is_boundary (n_normalized ns) b = true /\
      (forall i s e, nth_error (n_alignments ns) i = Some (s, e) ->
         (a <= i < b -> ts <= s /\ e <= te) /\ (ts <= s -> s < e -> e <= te -> a <= i < b))
  | None => forall i s e, nth_error (n_alignments ns) i = Some (s, e) -> te < e
  end.
Proof. exact convert_original_any. Qed.

Theorem C13_untouched : forall u m v, m <> [] ->
  convert_offsets (nfrom (u ++ m ++ v)) (ro (blen u) (blen u + blen m)) = Some (blen u, blen u + blen m) /\
  convert_offsets (nfrom (u ++ m ++ v)) (rn (blen u) (blen u + blen m)) = Some (blen u, blen u + blen m).
Proof. exact convert_untouched. Qed.

(** Inverted ranges, and normalised ranges past the end, are refused; an empty
    range is returned as it is; other forms of bounds mean their full range. *)
Theorem C13_invalid : forall ns a b,
  (b < a -> convert_offsets ns (rn a b) = None /\ convert_offsets ns (ro a b) = None) /\
  (a < b -> length (n_alignments ns) < b -> convert_offsets ns (rn a b) = None) /\
  convert_offsets ns (rn a a) = Some (a, a) /\ convert_offsets ns (ro a a) = Some (a, a).
Proof.
  intros ns a b. unfold convert_offsets, rn, ro. cbn [full_range]. split; [|split].
  - intros H. replace (a =? b) with false by lia. replace (b <? a) with true by lia. auto.
  - intros H1 H2. replace (a =? b) with false by lia. replace (b <? a) with false by lia.
    replace (b =? 0) with false by lia. rewrite !Bool.andb_false_r. unfold get_range.
    replace ((a <=? b) && _) with false by lia. reflexivity.
  - rewrite Nat.eqb_refl. auto.
Qed.

Theorem C13_bounds : forall ns s e,
  convert_offsets ns (ROriginal s e)
    = convert_offsets ns (ro (fst (full_range s e (n_len_original ns))) (snd (full_range s e (n_len_original ns)))) /\
  convert_offsets ns (RNormalized s e)
    = convert_offsets ns (rn (fst (full_range s e (n_len ns))) (snd (full_range s e (n_len ns)))).
Proof. intros ns s e. split; reflexivity. Qed.

(** An out-of-bounds original range is not refused (it is clamped). *)
Theorem C13_original_out_of_bounds_refuted :
  exists s a b, blen s < b /\ a < b /\ convert_offsets (nfrom s) (ro a b) <> None.
Proof. exists t_aeb, 1, 100. split; [cbn; lia|]. split; [lia|]. discriminate. Qed.

Example C13_example :
  exists ns, norm_reachable t_aeb ns /\ n_normalized ns = [97; 233; 33; 98]%N /\
    convert_offsets ns (rn 1 4) = Some (1, 3) /\ convert_offsets ns (ro 1 3) = Some (1, 4).
Proof.
  eexists. split; [|split; [|split]].
  - eapply norm_step with (op := MTransform [(97%N, 0%Z); (233%N, 0%Z); (33%N, 1%Z); (98%N, 0%Z)] 0); [apply norm_start|exact I|reflexivity].
  - reflexivity.
  - reflexivity.
  - reflexivity.
Qed.

(** ** C14 *)
Theorem C14_slice_normalized : forall ns a b,
  aligned ns -> a < b ->
  is_boundary (n_normalized ns) a = true -> is_boundary (n_normalized ns) b = true ->
  exists ns' s e,
    n_slice ns (rn a b) = Ok ns' /\
    str_get (n_normalized ns) a b = Some (n_normalized ns') /\
    convert_offsets ns (rn a b) = Some (s, e) /\
    str_get (n_original ns) s e = Some (n_original ns') /\
    offsets_original ns' = (n_shift ns + s, n_shift ns + e) /\
    n_alignments ns' = map (fun x => (fst x - s, snd x - s)) (firstn (b - a) (skipn a (n_alignments ns))) /\
    aligned ns'.
Proof. exact slice_normalized_any. Qed.

Theorem C14_slice_original : forall ns a b,
  aligned ns -> a < b ->
  is_boundary (n_original ns) a = true -> is_boundary (n_original ns) b = true ->
  match convert_offsets ns (ro a b) with
  | None => n_slice ns (ro a b) = Err tt
  | Some (x, y) =>
      exists ns',
        n_slice ns (ro a b) = Ok ns' /\
        str_get (n_original ns) a b = Some (n_original ns') /\
        str_get (n_normalized ns) x y = Some (n_normalized ns') /\
        offsets_original ns' = (n_shift ns + a, n_shift ns + b) /\
        n_alignments ns' = map (fun z => (fst z - a, snd z - a)) (firstn (y - x) (skipn x (n_alignments ns))) /\
        aligned ns'
  end.
Proof. exact slice_original_any. Qed.

Theorem C14_slice_none : forall ns a b,
  aligned ns ->
  (n_slice ns (rn a b) = Err tt <->
   ~ (a <= b /\ is_boundary (n_normalized ns) a = true /\ is_boundary (n_normalized ns) b = true)).
Proof. exact slice_none_normalized. Qed.

Theorem C14_slice_empty : forall ns a,
  aligned ns -> is_boundary (n_normalized ns) a = true ->
  exists ns', n_slice ns (rn a a) = Ok ns' /\ n_normalized ns' = [] /\ n_original ns' = [] /\ aligned ns'.
Proof. exact slice_empty_any. Qed.

Theorem C14_slice_total : forall ns r, aligned ns -> n_slice ns r <> Panic.
Proof.
  intros ns r H E. apply aligned_show in H. destruct H as (orig & cal & sh & -> & W).
  pose proof (slice_wf orig cal sh r W) as S. rewrite E in S. exact S.
Qed.

(** The position of an empty slice is not a position of the original text: the
    normalised offset is used as if it were an original one. *)
Theorem C14_empty_slice_position_refuted :
  exists s ns a ns', norm_reachable s ns /\ n_slice ns (rn a a) = Ok ns' /\
    n_len_original ns < fst (offsets_original ns').
Proof.
  exists [97]%N. eexists. exists 4. eexists. split; [|split].
  - eapply norm_step with (op := MPrepend [120; 120; 120]%N); [apply norm_start|exact I|reflexivity].
  - reflexivity.
  - cbn; lia.
Qed.

Example C14_example :
  exists ns', n_slice (nfrom t_aeb) (rn 1 4) = Ok ns' /\ n_normalized ns' = [233; 98]%N /\
    offsets_original ns' = (1, 4) /\ aligned (nfrom t_aeb).
Proof. eexists. split; [reflexivity|]. split; [reflexivity|]. split; [reflexivity|]. apply nfrom_aligned. Qed.

(** ** C15 *)
Theorem C15_split : forall ns ms segs b,
  aligned ns -> covers_text ms segs (n_normalized ns) ->
  exists pieces csegs,
    n_split ns ms b = Ok pieces /\
    shows ns (concat (map fst csegs)) /\ map (fun s => (ctext (fst s), snd s)) csegs = segs /\
    Forall2 (fun t ns' => part_of ns t ns' /\ aligned ns') (spec_split b csegs) pieces.
Proof.
  intros ns ms segs b H [Ht ->]. apply aligned_show in H. destruct H as (orig & cal & sh & -> & W).
  cbn [n_normalized show] in Ht. destruct (lift_segs segs cal Ht) as (csegs & -> & Es & Eo).
  rewrite <- (Eo 0). destruct (split_cal orig csegs sh b W) as (pieces & E & F).
  exists pieces, csegs. split; [exact E|]. split; [split; reflexivity|]. split; [exact Es|exact F].
Qed.

Theorem C15_split_text : forall ns ms segs b,
  aligned ns -> covers_text ms segs (n_normalized ns) ->
  exists pieces,
    n_split ns ms b = Ok pieces /\ map n_normalized pieces = spec_split b segs /\
    (b <> Removed -> concat (map n_normalized pieces) = n_normalized ns) /\
    (b = Removed -> concat (map n_normalized pieces)
                    = concat (map fst (filter (fun s => negb (snd s)) segs))).
Proof.
  intros ns ms segs b H C. destruct (C15_split ns ms segs b H C) as (pieces & csegs & E & _ & Es & F).
  assert (T : map n_normalized pieces = spec_split b segs).
  { rewrite <- Es. rewrite <- (natural_split ctext ctext_app). clear -F. induction F as [|t p ts ps [P _] _ IH]; [reflexivity|].
    cbn [map]. rewrite IH, (part_of_text _ _ _ P). reflexivity. }
  exists pieces. split; [exact E|]. split; [exact T|]. rewrite T. destruct C as [C _]. rewrite C. split.
  - intros Hb. destruct b; cbn [spec_split]; try congruence.
    + apply concat_isolated.
    + eapply concat_previous; eauto.
    + eapply concat_next; eauto.
    + apply concat_contiguous.
  - intros ->. reflexivity.
Qed.

Example C15_example :
  let s := [97; 32; 32; 98; 32]%N in
  let segs := [([97], false); ([32], true); ([32], true); ([98], false); ([32], true)]%N in
  covers_text (pred_find_matches sp s) segs s /\
  spec_split MergedWithPrevious segs = [[97; 32]; [32]; [98; 32]]%N /\
  spec_split MergedWithNext segs = [[97]; [32]; [32; 98]; [32]]%N /\
  spec_split Contiguous segs = [[97]; [32; 32]; [98]; [32]]%N /\
  spec_split Removed segs = [[97]; [98]]%N.
Proof. repeat split. Qed.

(** ** C16 *)
Theorem C16_predicate : forall p s,
  exists segs, covers_text (pred_find_matches p s) segs s /\
    char_flags segs = map (fun c => (c, p c)) s /\ gaps_maximal segs /\
    (s <> [] -> Forall (fun sg : str * bool => if snd sg then length (fst sg) = 1 else fst sg <> []) segs).
Proof.
  intros p s. unfold pred_find_matches. destruct s as [|c s].
  - exists [([], false)]. cbn. repeat split; auto.
  - exists (pred_segs p [] (c :: s)). cbn [is_nil].
    pose proof (pred_loop_segs p (c :: s) [] 0) as E. cbn [blen Nat.add] in E.
    destruct (pred_segs_shape p (c :: s) []) as [H1 H2].
    split; [|split; [|split]].
    + split; [symmetry; apply (pred_segs_concat p (c :: s) [])|exact E].
    + rewrite pred_segs_flags by constructor. reflexivity.
    + exact H2.
    + intros _. exact H1.
Qed.

Theorem C16_char : forall c s,
  exists segs, covers_text (char_find_matches c s) segs s /\
    char_flags segs = map (fun c' => (c', N.eqb c' c)) s.
Proof. intros c s. destruct (C16_predicate (fun c' => N.eqb c' c) s) as (segs & H1 & H2 & _). eauto. Qed.

Theorem C16_regex : forall find_iter s,
  engine_matches s 0 (find_iter s) ->
  exists segs, covers_text (regex_find_matches find_iter s) segs s /\ gaps_maximal segs /\
    (s <> [] -> map fst (filter snd (regex_find_matches find_iter s)) = find_iter s /\
                Forall (fun sg : str * bool => snd sg = false -> fst sg <> []) segs).
Proof.
  intros f s H. unfold regex_find_matches. destruct s as [|c s].
  - exists [([], false)]. cbn. repeat split; auto; try congruence.
  - cbn [is_nil]. destruct (regex_loop_segs (c :: s) (f (c :: s)) [] 0 eq_refl (ex_intro _ _ eq_refl) H) as (segs & E1 & E2 & E3 & E4 & E5).
    exists segs. rewrite E1. split; [split; [exact E2|reflexivity]|]. split; [exact E5|]. intros _. split; [exact E3|exact E4].
Qed.

Theorem C16_string : forall pat s,
  pat <> [] ->
  exists segs, covers_text (str_find_matches pat s) segs s /\ leftmost_literal pat segs /\ gaps_maximal segs.
Proof.
  intros pat s Hp. unfold str_find_matches, regex_find_matches. destruct pat as [|p0 pat'] eqn:Epat; [congruence|].
  rewrite <- Epat in *. replace (is_nil pat) with false by (rewrite Epat; reflexivity). clear Epat p0 pat'.
  destruct s as [|c s].
  - exists [([], false)]. cbn [is_nil]. split; [split; reflexivity|]. split; [|exact I]. split; [|exact I].
    intros u v w E Hv. destruct u, v; cbn in E; congruence.
  - cbn [is_nil]. destruct (regex_literal pat Hp (length (c :: s)) (c :: s) [] 0 ltac:(lia)) as (E1 & E2 & E3 & _ & E5).
    cbn [Nat.add] in E1. exists (lit_segs pat [] 0 (c :: s)). split; [split; [symmetry; exact E2|exact E1]|].
    split; [|exact E5]. apply E3. intros u v w E Hv. destruct u, v; cbn in E; congruence.
Qed.

Theorem C16_invert : forall ms segs s,
  covers_text ms segs s -> covers_text (invert_matches ms) (map (fun sg : str * bool => (fst sg, negb (snd sg))) segs) s.
Proof.
  intros ms segs s [E ->]. split; [|apply invert_segs]. rewrite map_map. exact E.
Qed.

(** The empty string pattern only covers texts whose characters are all one byte
    long: the end offset it returns is a number of characters. *)
Theorem C16_empty_string_partial : forall s,
  length s = blen s -> covers_text (str_find_matches [] s) [(s, false)] s.
Proof.
  intros s E. split; [cbn; rewrite app_nil_r; reflexivity|]. unfold str_find_matches. cbn [is_nil].
  rewrite seg_offsets_cons, E. reflexivity.
Qed.

Theorem C16_empty_string_refuted :
  exists s, ~ exists segs, covers_text (str_find_matches [] s) segs s.
Proof.
  exists [233]%N. intros (segs & E & H). cbn in H. destruct segs as [|[t f] [|]]; try discriminate; [|destruct p; discriminate].
  cbn [map fst concat] in E. rewrite app_nil_r in E. subst t. discriminate.
Qed.

Example C16_example :
  str_find_matches [97; 97]%N [97; 97; 97; 233; 97; 97]%N
  = [((0, 2), true); ((2, 5), false); ((5, 7), true)] /\
  engine_matches t_aeb 0 [(1, 3); (3, 3)] /\
  regex_find_matches (fun _ => [(1, 3); (3, 3)]) t_aeb
  = [((0, 1), false); ((1, 3), true); ((3, 3), true); ((3, 4), false)].
Proof. repeat split; cbn; lia. Qed.

(** ** C17 *)
Theorem C17_safe_histories : forall s ns op,
  safe_reachable s ns -> safe_op ns op -> exists ns', apply_norm_op ns op = Ok ns' /\ solid ns'.
Proof.
  intros s ns op R C. apply safe_reachable_inv in R. destruct R as (orig & cal & sh & -> & W & S).
  destruct (safe_step_ok orig cal sh op W S C) as (o & c & k & E & W' & S').
  exists (show o c k). split; [exact E|]. apply solid_show; exact S'.
Qed.

(** Without the hypothesis the property is false: inserting text in front of
    everything (here, replacing the empty match of "^") and then mapping panics... *)
Definition insert_front : norm_op := MReplace (fun s => [((0, 0), true); ((0, blen s), false)]) [120]%N.

Theorem C17_panic_refuted :
  exists s, run_norm_ops (nfrom s) [insert_front; MMap (fun c => c)] = Panic.
Proof. exists [97]%N. reflexivity. Qed.

(** ... and on an empty text, [append] followed by [lowercase] duplicates it. *)
Theorem C17_duplication_refuted :
  exists ns, run_norm_ops (nfrom []) [MAppend [97; 98]%N; MCase (fun c => [c])] = Ok ns /\
             n_normalized ns = [97; 98; 97; 98]%N.
Proof. eexists. split; reflexivity. Qed.

Example C17_example :
  exists ns, safe_reachable t_aeb ns /\ n_normalized ns = [120; 97; 98]%N /\ safe_op ns (MCase t_up).
Proof.
  eexists. split; [|split].
  - eapply safe_step with (op := MFilter (fun c => negb (N.eqb c 233)));
      [eapply safe_step with (op := MPrepend [120]%N); [apply safe_start|discriminate|reflexivity]|exact I|reflexivity].
  - reflexivity.
  - cbn. intros c. unfold t_up. destruct (N.eqb c 223); discriminate.
Qed.

(** ** C18 *)
Theorem C18_roundtrip : forall p m q,
  m <> [] \/ q <> [] \/ p = [] ->
  char_to_bytes (p ++ m ++ q) (length p) (length p + length m) = Ok (Some (blen p, blen p + blen m)) /\
  bytes_to_char (p ++ m ++ q) (blen p) (blen p + blen m) = Some (length p, length p + length m).
Proof. intros p m q H. split; [apply char_to_bytes_ok|apply bytes_to_char_ok]; exact H. Qed.

Theorem C18_bytes_to_char_only : forall s a b i j,
  bytes_to_char s a b = Some (i, j) ->
  exists p m q, s = p ++ m ++ q /\ a = blen p /\ b = blen p + blen m /\ i = length p /\ j = length p + length m.
Proof.
  intros s a b i j H. apply bytes_to_char_inv in H. destruct H as (p & m & q & H1 & H2 & H3 & H4 & H5 & _). eauto 10.
Qed.

Theorem C18_inverse : forall s a b i j,
  bytes_to_char s a b = Some (i, j) -> char_to_bytes s i j = Ok (Some (a, b)).
Proof.
  intros s a b i j H. apply bytes_to_char_inv in H. destruct H as (p & m & q & -> & -> & -> & -> & -> & H).
  apply char_to_bytes_ok; exact H.
Qed.

Theorem C18_get_range_of : forall p m q,
  m <> [] -> get_range_of (p ++ m ++ q) (length p) (length p + length m) = Ok (Some m).
Proof. exact get_range_of_ok. Qed.

Theorem C18_get_range_of_total : forall s a b, get_range_of s a b <> Panic.
Proof.
  intros s a b. destruct ((a =? 0) && (b =? 0)) eqn:E0.
  - unfold get_range_of. rewrite E0. discriminate.
  - destruct ((length s <=? a) || (length s <? b) || (b <=? a)) eqn:E1.
    + unfold get_range_of. rewrite E0, E1. discriminate.
    + assert (E : s = firstn a s ++ firstn (b - a) (skipn a s) ++ skipn (b - a) (skipn a s))
        by (rewrite !firstn_skipn; reflexivity).
      assert (La : length (firstn a s) = a) by (rewrite firstn_length; lia).
      assert (Lb : length (firstn (b - a) (skipn a s)) = b - a) by (rewrite firstn_length, skipn_length; lia).
      pose proof (get_range_of_ok (firstn a s) (firstn (b - a) (skipn a s)) (skipn (b - a) (skipn a s))) as G.
      rewrite <- E, La, Lb in G. replace (a + (b - a)) with b in G by lia.
      rewrite G; [discriminate|]. intros Z. rewrite Z in Lb. cbn in Lb. lia.
Qed.

(** The empty range at the very end of a non-empty string is refused by both;
    an inverted character range makes [char_to_bytes] panic. *)
Theorem C18_end_refuted :
  bytes_to_char t_aeb 4 4 = None /\ char_to_bytes t_aeb 3 3 = Ok None /\ char_to_bytes t_aeb 2 1 = Panic.
Proof. repeat split. Qed.

Example C18_example :
  char_to_bytes t_aeb 1 3 = Ok (Some (1, 4)) /\ bytes_to_char t_aeb 1 4 = Some (1, 3) /\
  bytes_to_char t_aeb 2 4 = None.
Proof. repeat split. Qed.

(** ** C19 *)
Theorem C19_filter : forall ns keep,
  aligned ns -> head_wide ns ->
  exists ns' cal, n_filter ns keep = Ok ns' /\ same_source ns ns' /\
    shows ns cal /\ shows ns' (filter (fun ca => keep (fst ca)) cal).
Proof.
  intros ns keep H Hw. apply aligned_show in H. destruct H as (orig & cal & sh & -> & W).
  apply head_wide_show in Hw. exists (show orig (filter (fun ca => keep (fst ca)) cal) sh), cal.
  split; [apply filter_cal; assumption|]. split; [split; reflexivity|]. split; split; reflexivity.
Qed.

Theorem C19_strip : forall ns w left right,
  aligned ns -> head_wide ns ->
  exists ns' l m r, n_lrstrip ns w left right = Ok ns' /\ same_source ns ns' /\
    shows ns (l ++ m ++ r) /\ shows ns' m /\
    all_ws w l /\ all_ws w r /\ (left = false -> l = []) /\ (right = false -> r = []) /\
    (left = true -> no_ws_head w m) /\ (right = true -> no_ws_last w m).
Proof.
  intros ns w lf rt H Hw. apply aligned_show in H. destruct H as (orig & cal & sh & -> & W).
  apply head_wide_show in Hw.
  destruct (lrstrip_cal orig cal sh w lf rt W Hw) as (l & m & r & E & H1 & H2 & H3 & H4 & H5 & H6 & H7).
  exists (show orig m sh), l, m, r. split; [exact H7|]. split; [split; reflexivity|].
  split; [rewrite <- E; split; reflexivity|]. split; [split; reflexivity|]. auto 10.
Qed.

(** Every history of safe operations satisfies the hypotheses above. *)
Theorem C19_safe_histories : forall s ns, safe_reachable s ns -> aligned ns /\ head_wide ns.
Proof.
  intros s ns R. apply safe_reachable_inv in R. destruct R as (orig & cal & sh & -> & W & S).
  split; [apply show_aligned; exact W|]. apply head_wide_show, csolid_hwide; exact S.
Qed.

(** [head_wide] is needed: filtering nothing out of "ab" appended to "" doubles it. *)
Theorem C19_zero_width_refuted :
  exists ns ns', norm_reachable [] ns /\ n_filter ns (fun _ => true) = Ok ns' /\ n_normalized ns' <> n_normalized ns.
Proof.
  eexists. eexists. split; [|split].
  - eapply norm_step with (op := MAppend [97; 98]%N); [apply norm_start|exact I|reflexivity].
  - reflexivity.
  - discriminate.
Qed.

Example C19_example :
  exists ns', n_lrstrip (nfrom [32; 32; 97; 32; 98; 32]%N) sp true true = Ok ns' /\
    n_normalized ns' = [97; 32; 98]%N /\ n_alignments ns' = [(2, 3); (3, 4); (4, 5)].
Proof. eexists. repeat split. Qed.

(** ** C20 *)
Theorem C20_replace : forall ns ms segs content,
  aligned ns -> covers_text ms segs (n_normalized ns) ->
  exists ns' csegs,
    n_replace ns ms content = Ok ns' /\ same_source ns ns' /\
    shows ns (concat (map fst csegs)) /\ map (fun s => (ctext (fst s), snd s)) csegs = segs /\
    shows ns' (spec_replace content (0, 0) csegs) /\ aligned ns'.
Proof.
  intros ns ms segs content H [Ht ->]. apply aligned_show in H. destruct H as (orig & cal & sh & -> & W).
  cbn [n_normalized show] in Ht. destruct (lift_segs segs cal Ht) as (csegs & -> & Es & Eo).
  exists (show orig (spec_replace content (0, 0) csegs) sh), csegs. rewrite <- (Eo 0).
  split; [apply replace_cal|]. split; [split; reflexivity|]. split; [split; reflexivity|]. split; [exact Es|].
  split; [split; reflexivity|]. apply show_aligned. apply (wf_spec_replace orig sh); exact W.
Qed.

(** As text: each match becomes [content], the rest is unchanged. *)
Theorem C20_replace_text : forall ns ms segs content,
  aligned ns -> covers_text ms segs (n_normalized ns) ->
  exists ns', n_replace ns ms content = Ok ns' /\
    n_normalized ns' = concat (map (fun s : str * bool => if snd s then content else fst s) segs).
Proof.
  intros ns ms segs content H C. destruct (C20_replace ns ms segs content H C) as (ns' & csegs & E & _ & _ & Es & [T _] & _).
  exists ns'. split; [exact E|]. rewrite T, <- Es. clear. generalize (0, 0) as prev.
  induction csegs as [|[t f] csegs IH]; intros prev; [reflexivity|].
  cbn [spec_replace map snd fst concat]. rewrite ctext_app, IH. f_equal. destruct f; [|reflexivity].
  unfold ctext. rewrite map_map. apply map_id.
Qed.

Example C20_example :
  exists ns', n_replace (nfrom t_aeb) (char_find_matches 233%N t_aeb) [120; 121]%N = Ok ns' /\
    n_normalized ns' = [97; 120; 121; 98]%N /\ n_alignments ns' = [(0, 1); (1, 3); (1, 3); (3, 4)].
Proof. eexists. repeat split. Qed.

(** ** C61 *)
Theorem C61_map : forall ns f,
  aligned ns -> head_wide ns ->
  exists ns' cal, n_map ns f = Ok ns' /\ same_source ns ns' /\
    shows ns cal /\ shows ns' (map (fun ca => (f (fst ca), snd ca)) cal).
Proof.
  intros ns f H Hw. apply aligned_show in H. destruct H as (orig & cal & sh & -> & W).
  apply head_wide_show in Hw. eexists. exists cal.
  split; [apply map_cal; assumption|]. split; [split; reflexivity|]. split; split; reflexivity.
Qed.

(** Case changes: every character becomes the characters of its mapping, all
    carrying its range. *)
Theorem C61_case : forall ns f,
  aligned ns -> head_wide ns -> (forall c, f c <> []) ->
  exists ns' cal, n_case ns f = Ok ns' /\ same_source ns ns' /\
    shows ns cal /\ shows ns' (flat_map (fun ca => map (fun c => (c, snd ca)) (f (fst ca))) cal).
Proof.
  intros ns f H Hw Hf. apply aligned_show in H. destruct H as (orig & cal & sh & -> & W).
  apply head_wide_show in Hw. eexists. exists cal.
  split; [apply case_cal; assumption|]. split; [split; reflexivity|]. split; split; reflexivity.
Qed.

Theorem C61_clear : forall ns,
  aligned ns -> head_wide ns ->
  exists ns', n_clear ns = Ok ns' /\ same_source ns ns' /\ n_normalized ns' = [] /\ n_alignments ns' = [].
Proof.
  intros ns H Hw. apply aligned_show in H. destruct H as (orig & cal & sh & -> & W).
  apply head_wide_show in Hw. eexists. split; [apply clear_cal; assumption|]. repeat split.
Qed.

(** Prepended characters carry the range of the first character, appended ones
    that of the last. *)
Theorem C61_prepend : forall ns s,
  aligned ns -> s <> [] -> n_normalized ns <> [] ->
  exists ns' c a r, n_prepend ns s = Ok ns' /\ same_source ns ns' /\
    shows ns ((c, a) :: r) /\ shows ns' (map (fun x => (x, a)) s ++ (c, a) :: r).
Proof.
  intros ns s H Hs Hn. apply aligned_show in H. destruct H as (orig & cal & sh & -> & W).
  destruct cal as [|[c a] r]; [exfalso; apply Hn; reflexivity|].
  eexists. exists c, a, r. split; [apply prepend_result; exact Hs|]. split; [split; reflexivity|]. split; split; reflexivity.
Qed.

Theorem C61_append : forall ns s,
  aligned ns -> n_normalized ns <> [] ->
  exists ns' r c a, n_append ns s = Ok ns' /\ same_source ns ns' /\
    shows ns (r ++ [(c, a)]) /\ shows ns' (r ++ (c, a) :: map (fun x => (x, a)) s).
Proof.
  intros ns s H Hn. apply aligned_show in H. destruct H as (orig & cal & sh & -> & W).
  destruct cal as [|[c a] r] using rev_ind; [exfalso; apply Hn; reflexivity|].
  eexists. exists r, c, a. split; [apply append_result|]. split; [split; reflexivity|]. split; split; reflexivity.
Qed.

(** Prepending the empty string is not the identity: the first character loses its range. *)
Theorem C61_prepend_empty_refuted :
  exists s ns', n_prepend (nfrom s) [] = Ok ns' /\ n_normalized ns' = s /\ n_alignments ns' <> n_alignments (nfrom s).
Proof. exists [97]%N. eexists. split; [reflexivity|]. split; [reflexivity|discriminate]. Qed.

Example C61_example :
  exists ns', n_case (nfrom [97; 223; 98]%N) t_up = Ok ns' /\
    n_normalized ns' = [97; 83; 83; 98]%N /\ n_alignments ns' = [(0, 1); (1, 3); (1, 3); (3, 4)].
Proof. eexists. repeat split. Qed.
