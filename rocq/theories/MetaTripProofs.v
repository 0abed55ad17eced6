(** Proofs of the round trip of texts cut by Metaspace (C79). *)
From Verif Require Import Base ListFacts StrBytes Utf8 AMap EncodingModel EncodingSpec NormModel NormSpec NormProofs NormProofs5 PatternModel
  ProcessorsModel ProcessorsSpec DecodersModel DecodersSpec DecodersProofs DecodersProofs2 DecodersProofs3 DecodersProps AddedModel AddedSpec AddedProofs AddedProofs2 AddedProofs3 AddedProofs4 AddedProps
  TokenizerModel PreTokModel PreTokSpec PreTokProofs PreTokProps PreTokenizersModel PreTokenizersSpec PreTokenizersProps
  EndToEndSpec EndToEndProofs EndToEndProps RoundTripModel RoundTripSpec RoundTripProofs SpmTripModel SpmTripSpec SpmTripProofs BpeWordModel BpeWordSpec BpeModel BpeSpec BpeProofs BpeProps UnigramModel UnigramSpec UnigramProofs UnigramProps TrainersProps WordPieceModel ModelFilesModel TokenizerFilesModel MetaTripSpec.

(** ** Where the added tokens come from *)
Lemma loop_from m norm : forall ts av next n offered av' r, from_offer offered av -> add_loop m norm ts av next n = (av', r) -> from_offer (offered ++ ts) av'.
Proof.
  induction ts as [|t ts IH]; intros av next n offered av' r O E; cbn [add_loop] in E; [injection E as <- _; rewrite app_nil_r; exact O|].
  assert (ST : forall normed av1 nx b, add_one m normed t av next = (av1, nx, b) -> from_offer (offered ++ [t]) av1).
  { intros normed av1 nx b. unfold add_one. assert (O' : from_offer (offered ++ [t]) av) by (intros i x Hx; apply in_or_app; left; eapply O; eauto).
    destruct (is_nil (at_content t)); [intros X; injection X as <- _ _; auto|].
    match goal with |- context [if ?b then _ else _] => destruct b end; [intros X; injection X as <- _ _; auto|].
    destruct (av_token_to_id av m (at_content t)) as [i|]; intros X; injection X as <- _ _; intros j x Hx; cbn [av_map_r] in Hx; apply aset_In in Hx;
      (destruct Hx as [Hx|Hx]; [injection Hx as -> ->; apply in_or_app; right; left; reflexivity|eapply O'; eauto]). }
  assert (GO : forall normed, (let '(a1, nx, b) := add_one m normed t av next in add_loop m norm ts a1 nx (if b then n + 1 else n)) = (av', r) -> from_offer (offered ++ t :: ts) av').
  { intros normed X. destruct (add_one m normed t av next) as [[a1 nx] b] eqn:EA. apply ST in EA. apply (IH _ _ _ (offered ++ [t]) _ _ EA) in X. rewrite <- app_assoc in X. exact X. }
  destruct norm as [f|]; [|apply (GO None); exact E].
  destruct (is_ignored t av || negb (at_normalized t)); [apply (GO None); exact E|]. destruct (f (at_content t)); [eapply GO; exact E|].
  injection E as <- _. intros i x Hx. apply in_or_app. left. eapply O; eauto.
Qed.

Lemma refresh_from build av offered av' ok : from_offer offered av -> av_refresh build av = (av', ok) -> from_offer offered av'.
Proof.
  intros O. unfold av_refresh. destruct (is_nil _ || _); [|intros E; injection E as <- _; exact O].
  destruct (is_nil _ || _); intros E; injection E as <- _; exact O.
Qed.

Lemma history_from build m NF av offered taken : added_history build m NF av offered taken -> from_offer offered av.
Proof.
  induction 1 as [|av offered taken norm ts av' n _ IH _ A|av offered taken norm ts av' _ IH _ A|av offered taken norm av' ok _ IH _ A|av offered taken b _ IH].
  - intros i t [].
  - unfold add_tokens in A. destruct (add_loop m norm ts av (first_next_id av m) 0) as [av1 [k|]] eqn:EL; [|discriminate]. apply (loop_from _ _ _ _ _ _ offered) in EL; [|exact IH].
    destruct (av_refresh build av1) as [av2 ok] eqn:ER. apply (refresh_from _ _ _ _ _ EL) in ER. injection A as <- _. exact ER.
  - unfold add_tokens in A. destruct (add_loop m norm ts av (first_next_id av m) 0) as [av1 [k|]] eqn:EL; apply (loop_from _ _ _ _ _ _ offered) in EL; try exact IH.
    + destruct (av_refresh build av1) as [av2 ok] eqn:ER. apply (refresh_from _ _ _ _ _ EL) in ER. injection A as <- _. exact ER.
    + injection A as <-. exact EL.
  - unfold av_refresh_normalized in A. destruct (recache norm (av_map_r av) []) as [c b]. destruct b; [|injection A as <- _; exact IH].
    eapply refresh_from; [|exact A]. exact IH.
  - exact IH.
Qed.

(** ** The first section and the others *)
Lemma id_cal_split : forall s b l1 c a l2, id_cal b s = l1 ++ (c, a) :: l2 -> fst a = b + blen (map fst l1).
Proof.
  induction s as [|x s IH]; intros b l1 c a l2 E; [destruct l1; discriminate|]. cbn [id_cal] in E. destruct l1 as [|y l1].
  - injection E as E1 E2 E3. subst. cbn [map blen fst]. lia.
  - injection E as <- E. apply IH in E. cbn [map blen fst]. lia.
Qed.

Lemma part_place s l0 t rest ns' : id_cal 0 s = l0 ++ t ++ rest -> part_of (nfrom s) t ns' -> n_normalized ns' <> [] -> t <> [] /\ n_shift ns' = blen (map fst l0).
Proof.
  intros E P NE. destruct t as [|[c a] r]; [destruct P as (P & _); congruence|]. split; [discriminate|]. destruct P as (u & v & _ & P1 & _ & P2 & _).
  cbn [nfrom n_shift] in P2. cbn [app] in E. apply id_cal_split in E. lia.
Qed.

Lemma marks_places s : forall (marks : list (list (char * (nat * nat)) * bool)) l0 pieces, id_cal 0 s = l0 ++ concat (map fst marks) ->
  (forall t, In (t, false) marks -> t = []) -> Forall2 (fun t ns' => part_of (nfrom s) t ns' /\ aligned ns') (kept_parts marks) pieces ->
  Forall (fun n => n_normalized n <> []) pieces -> Forall (fun q => blen (map fst l0) <= n_shift q) pieces /\
  match pieces with [] => True | p :: ps => n_shift p = blen (map fst l0) /\ Forall (fun q => blen (map fst l0) < n_shift q) ps end.
Proof.
  induction marks as [|[t b] marks IH]; intros l0 pieces E D F NE.
  - cbn in F. inversion F; subst. auto.
  - cbn [map concat fst] in E. assert (D' : forall x, In (x, false) marks -> x = []) by (intros x Hx; apply D; right; exact Hx). destruct b.
    + unfold kept_parts in F. cbn [filter snd map fst] in F. inversion F as [|? p ? ps [P1 P2] F']; subst. apply Forall_cons_iff in NE. destruct NE as [N1 N2].
      destruct (part_place s l0 t _ p E P1 N1) as [NT SH]. rewrite app_assoc in E. destruct (IH (l0 ++ t) ps E D' F' N2) as [G _].
      rewrite map_app, blen_app in G. assert (0 < blen (map fst t)) by (destruct t as [|[c a] t]; [congruence|]; cbn [map blen fst]; pose proof (len_utf8_pos c); lia).
      assert (G' : Forall (fun q => blen (map fst l0) < n_shift q) ps) by (eapply Forall_impl; [|exact G]; cbn beta; intros; lia).
      split; [constructor; [lia|eapply Forall_impl; [|exact G']; cbn beta; intros; lia]|]. split; [exact SH|exact G'].
    + rewrite (D t (or_introl eq_refl)) in E. cbn [app] in E. unfold kept_parts in F. cbn [filter snd] in F. apply (IH l0 pieces E D' F NE).
Qed.

Lemma section_places s pt sp rest : cut_history (fun _ => False) (nfrom s) pt -> pt_splits pt = sp :: rest ->
  n_shift (sp_norm sp) = 0 /\ Forall (fun x => 0 < n_shift (sp_norm x)) rest.
Proof.
  intros C E. destruct (cut_history_inv _ _ (nfrom_aligned s) _ C) as [[[t I]|[NE (marks & S & D & F)]] _].
  - rewrite E in I. injection I as -> ->. split; [reflexivity|constructor].
  - assert (EC : concat (map fst marks) = id_cal 0 s).
    { eapply shows_inj; [exact S|]. split; cbn [nfrom n_normalized n_alignments]; [rewrite ctext_id_cal; reflexivity|rewrite cbytes_id_cal; reflexivity]. }
    destruct (marks_places s marks [] (map sp_norm (pt_splits pt))) as [_ G]; [symmetry; exact EC| |exact F|exact NE|].
    + intros t Ht. apply D in Ht. destruct t as [|x t]; [reflexivity|]. inversion Ht; subst. contradiction.
    + rewrite E in G. cbn [map blen] in G. destruct G as [G1 G2]. split; [exact G1|]. rewrite Forall_map in G2. exact G2.
Qed.

(** ** What decoding shows *)
Definition part_of_split (sp : split) : bool * str := (match sp_tokens sp with Some _ => true | None => false end, n_normalized (sp_norm sp)).

(** The text of the section with its space. *)
Definition put_part (scheme : prepend_scheme) (sp : split) : str :=
  match sp_tokens sp with
  | Some _ => n_normalized (sp_norm sp)
  | None => with_space (puts_space scheme (sp_norm sp)) (n_normalized (sp_norm sp))
  end.

Lemma puts_later scheme l : Forall (fun x => 0 < n_shift (sp_norm x)) l -> flat_map (put_part scheme) l = flat_map (later_part scheme) (map part_of_split l).
Proof.
  induction 1 as [|sp l H _ IH]; [reflexivity|]. cbn [flat_map map]. rewrite IH. f_equal. unfold put_part, later_part, part_of_split. destruct (sp_tokens sp); [reflexivity|]. cbn [fst snd].
  f_equal. unfold puts_space, offsets_original. cbn [fst]. destruct scheme; [|reflexivity|reflexivity]. destruct (Nat.eqb_spec (n_shift (sp_norm sp)) 0); [lia|reflexivity].
Qed.

Section meta_text.
  Context (mv : model_vocab) (rep : char) (scheme : prepend_scheme) (answer : str -> res unit (list token)).
  Context (build : list (str * N) -> bool) (av : added_vocab) (offered taken : list added_token).
  Context (R32 : rep <> 32%N) (RS : is_scalar rep = true) (MO : model_ok mv) (DN : dense mv).
  Context (AH : added_history build mv no_norm av offered taken).
  Context (s : str) (NR : ~ In rep s) (SP : forall w, word_of rep s w -> spells mv answer w).

  Let f : nstring -> res unit (list token) := fun ns => answer (n_normalized ns).

  (** The tokens of a section. *)
  Definition section_said (sp : split) (ts : list token) : Prop :=
    Forall (token_named mv av) ts /\
    match sp_tokens sp with
    | Some _ => map t_value ts = [n_normalized (sp_norm sp)]
    | None => concat (map t_value ts) = marked rep (put_part scheme sp) /\ Forall (fun t => t_value t <> []) ts /\
              match ts with t :: _ => head_only rep (t_value t) | [] => True end
    end.

  Lemma word_part puts x a b u w v : marked rep (with_space puts x) = u ++ w ++ v -> w <> [] -> word_of rep (a ++ x ++ b) w.
  Proof.
    intros E NE. split; [exact NE|].
    assert (D : forall u', marked rep x = u' ++ w ++ v -> exists a0 x0 b0, a ++ x ++ b = a0 ++ x0 ++ b0 /\ (w = marked rep x0 \/ w = rep :: marked rep x0)).
    { intros u' X. unfold marked in X. apply map_eq_app in X. destruct X as (x1 & x2 & -> & <- & X). apply map_eq_app in X. destruct X as (x3 & x4 & -> & <- & <-).
      exists (a ++ x1), x3, (x4 ++ b). split; [rewrite <- !app_assoc; reflexivity|left; reflexivity]. }
    unfold with_space in E. destruct x as [|c x]; [destruct u, w; try discriminate; congruence|]. destruct (puts && negb (N.eqb c 32)); [|eapply D; exact E].
    destruct u as [|y u]; [|injection E as <- E; eapply D; exact E]. destruct w as [|y w]; [congruence|]. cbn [app] in E. change (marked rep (32%N :: c :: x)) with (rep :: marked rep (c :: x)) in E. injection E as <- E.
    change (marked rep (c :: x) = w ++ v) in E. apply map_eq_app in E. destruct E as (x1 & x2 & E & <- & <-). exists a, x1, (x2 ++ b). rewrite E. split; [rewrite <- !app_assoc; reflexivity|right; reflexivity].
  Qed.

  Lemma words_tokens : forall g, Forall (fun sp => sp_tokens sp = None /\ n_normalized (sp_norm sp) <> []) g ->
    (forall sp, In sp g -> word_of rep s (n_normalized (sp_norm sp))) ->
    exists g', map_res (tokenize_one f) g = Ok g' /\ Forall2 tokenised g g' /\ Forall (token_named mv av) (flat_map tokens_in g') /\
      Forall (fun t => t_value t <> []) (flat_map tokens_in g') /\
      concat (map t_value (flat_map tokens_in g')) = concat (map (fun sp => n_normalized (sp_norm sp)) g) /\
      match g, g' with sp :: _, sp' :: _ => concat (map t_value (tokens_in sp')) = n_normalized (sp_norm sp) | _, _ => True end.
  Proof.
    induction 1 as [|sp g [Hn NE] _ IH]; intros CH; [exists []; repeat split; constructor|].
    destruct IH as (g' & E & F & V & NV & C & _); [intros x Hx; apply CH; right; exact Hx|].
    destruct (SP (n_normalized (sp_norm sp)) (CH sp (or_introl eq_refl))) as (toks & E1 & C1 & V1).
    exists (mkSplit (sp_norm sp) (Some toks) :: g'). cbn [map_res]. unfold tokenize_one at 1. rewrite Hn. unfold f at 1. rewrite E1. cbn [bind]. rewrite E. cbn [bind].
    split; [reflexivity|]. split.
    { constructor; [|exact F]. split; [reflexivity|]. split; [reflexivity|]. unfold tokens_in. cbn [sp_tokens sp_norm]. eapply Forall_impl; [|exact V1]. cbn beta. intros t (_ & _ & X). exact X. }
    cbn [flat_map map concat]. unfold tokens_in at 1 3 5 7. cbn [sp_tokens]. split; [|split; [|split]].
    - apply Forall_app. split; [|exact V]. eapply Forall_impl; [|exact V1]. cbn beta. intros t (_ & X & _). unfold token_named.
      eapply C25_round_trip_without_normalizer; [exact MO|exact DN|exact AH|]. eapply C25_model_tokens_keep_their_id; [exact AH|exact X].
    - apply Forall_app. split; [|exact NV]. eapply Forall_impl; [|exact V1]. cbn beta. intros t (X & _). exact X.
    - rewrite map_app, concat_app, C1, C. reflexivity.
    - exact C1.
  Qed.

  Lemma section_says sp g : extracted av sp -> (exists u v, s = u ++ n_normalized (sp_norm sp) ++ v) -> meta_group rep scheme true sp g ->
    exists g', map_res (tokenize_one f) g = Ok g' /\ section_said sp (flat_map tokens_in g') /\ Forall2 tokenised g g'.
  Proof.
    intros (NE & SO & AD) IC G. unfold meta_group in G. unfold section_said. destruct (sp_tokens sp) as [ts|] eqn:Et.
    - subst g. exists [sp]. cbn [map_res]. unfold tokenize_one. rewrite Et. cbn [bind]. split; [reflexivity|].
      destruct (AD ts eq_refl) as (i & t & -> & E & C). cbn [flat_map]. rewrite app_nil_r. split.
      + unfold tokens_in. rewrite Et. split; [|reflexivity].
        constructor; [|constructor]. unfold token_named. cbn [t_id t_value]. rewrite <- C. eapply added_named; eauto.
      + constructor; [|constructor]. split; [reflexivity|]. split; [unfold has_tokens; rewrite Et; reflexivity|]. unfold tokens_in. rewrite Et.
        constructor; [|constructor]. unfold token_fits. cbn [t_offsets fst snd]. unfold n_len. destruct (n_normalized (sp_norm sp)) as [|c x]; [congruence|]. cbn [blen]. pose proof (len_utf8_pos c). lia.
    - destruct G as (FN & [HO _] & CC). unfold put_part. rewrite Et.
      destruct (words_tokens g FN) as (g' & E & F & V & NV & C & H1).
      { intros x Hx. apply List.in_split in Hx. destruct Hx as (l1 & l2 & ->). rewrite map_app, concat_app in CC. cbn [map concat] in CC. destruct IC as (u & v & ->).
        apply Forall_app in FN. destruct FN as [_ FN]. apply Forall_cons_iff in FN. destruct FN as [[_ FN] _].
        eapply word_part; [symmetry; exact CC|exact FN]. }
      exists g'. split; [exact E|]. split; [|exact F]. split; [exact V|]. split; [rewrite C; exact CC|]. split; [exact NV|].
      destruct F as [|a b la lb Tk F]; [exact Logic.I|]. cbn [flat_map] in *. destruct (tokens_in b) as [|t0 ts0] eqn:Eb.
      { exfalso. cbn [map concat] in H1. apply Forall_cons_iff in FN. destruct FN as [[_ FN] _]. congruence. }
      cbn [app]. apply Forall_cons_iff in HO. destruct HO as [HO _]. cbn [map concat] in H1. rewrite <- H1 in HO. unfold head_only in *. intros X. apply HO.
      destruct (t_value t0) as [|x0 v0]; [destruct X|]. cbn [app tl] in *. apply in_or_app. left. exact X.
  Qed.

  Lemma unmark_app a b : unmark rep (a ++ b) = unmark rep a ++ unmark rep b.
  Proof. unfold unmark. apply map_app. Qed.

  Lemma put_part_free sp : (forall c, In c (n_normalized (sp_norm sp)) -> In c s) -> ~ In rep (put_part scheme sp).
  Proof.
    intros IC X. unfold put_part in X. destruct (sp_tokens sp); [apply NR, IC, X|]. unfold with_space in X. destruct (n_normalized (sp_norm sp)) as [|y z] eqn:EN; [destruct X|].
    destruct (_ && _); [destruct X as [X|X]; [congruence|]|]; apply NR, IC; exact X.
  Qed.

  Lemma sections_unmarked : forall l ts, Forall (fun sp => forall c, In c (n_normalized (sp_norm sp)) -> In c s) l -> Forall2 section_said l ts ->
    unmark rep (concat (map t_value (concat ts))) = flat_map (put_part scheme) l.
  Proof.
    intros l ts F G. revert F. induction G as [|sp t l ts H _ IH]; intros F; [reflexivity|]. apply Forall_cons_iff in F. destruct F as [F1 F2].
    cbn [concat flat_map]. rewrite map_app, concat_app, unmark_app, IH by exact F2. f_equal. pose proof (put_part_free sp F1) as NP. destruct H as [_ H]. unfold put_part in *. destruct (sp_tokens sp).
    - rewrite H. cbn [concat]. rewrite app_nil_r. apply unmark_id. exact NP.
    - destruct H as [-> _]. apply unmark_marked. exact NP.
  Qed.

  Lemma metaspace_after first a b : a <> [] -> concat (metaspace_decode rep scheme first (a ++ b)) = concat (metaspace_decode rep scheme first a) ++ unmark rep (concat b).
  Proof.
    destruct a as [|x a]; [congruence|]. intros _. cbn [app metaspace_decode concat]. rewrite !metaspace_rest, concat_app, unmark_app, app_assoc. reflexivity.
  Qed.

  Lemma first_kept x : ~ In rep x -> flat_map (metaspace_char rep (true && negb (is_never scheme))) x = x.
  Proof.
    induction x as [|c x IH]; intros NX; [reflexivity|]. cbn [flat_map]. rewrite IH by (intros X; apply NX; right; exact X). unfold metaspace_char. destruct (N.eqb_spec c rep) as [->|_]; [destruct NX; left; reflexivity|reflexivity].
  Qed.

  Lemma sections_decoded l ts :
    Forall (fun sp => n_normalized (sp_norm sp) <> [] /\ forall c, In c (n_normalized (sp_norm sp)) -> In c s) l -> Forall2 section_said l ts ->
    match l with [] => True | sp :: rest => n_shift (sp_norm sp) = 0 /\ Forall (fun x => 0 < n_shift (sp_norm x)) rest end ->
    DecodersModel.decode_tokens (DMetaspace rep scheme) (map t_value (concat ts)) = Ok (shown_parts scheme (map part_of_split l)).
  Proof.
    intros F G PL. unfold DecodersModel.decode_tokens. cbn [decode_chain bind]. f_equal. destruct G as [|sp t l ts H G]; [reflexivity|]. destruct PL as [P1 P2].
    assert (F' : Forall (fun sp => forall c, In c (n_normalized (sp_norm sp)) -> In c s) (sp :: l)) by (eapply Forall_impl; [|exact F]; cbn beta; tauto).
    apply Forall_cons_iff in F'. destruct F' as [F1 F2]. apply Forall_cons_iff in F. destruct F as [[NE _] _].
    cbn [concat]. rewrite map_app. pose proof (put_part_free sp F1) as NP. destruct H as [_ H].
    assert (NT : map t_value t <> []).
    { destruct (sp_tokens sp) eqn:Et; [rewrite H; discriminate|]. destruct H as [H _]. unfold put_part in H. rewrite Et in H. intros X. rewrite X in H. cbn [concat] in H. unfold with_space in H.
      destruct (n_normalized (sp_norm sp)) as [|c z]; [congruence|]. destruct (_ && _); discriminate. }
    rewrite metaspace_after by exact NT. rewrite (sections_unmarked l ts F2 G), (puts_later scheme l P2). cbn [map].
    unfold part_of_split at 2. unfold put_part in H, NP. destruct (sp_tokens sp) as [tk|].
    - rewrite H. cbn [metaspace_decode concat]. rewrite first_kept by exact NP. rewrite app_nil_r. reflexivity.
    - destruct H as (C & NV & HD). cbn [shown_parts flat_map]. destruct t as [|t0 t]; [destruct NT; reflexivity|]. cbn [map] in *.
      rewrite (metaspace_cut rep scheme _ _ _ NP) ; [|apply Forall_cons_iff in NV; apply NV|exact C|intros _; exact HD]. f_equal.
      unfold puts_space, offsets_original. cbn [fst]. rewrite P1. destruct (n_normalized (sp_norm sp)) as [|c z]; [congruence|].
      destruct scheme; cbn [is_never Nat.eqb with_space andb drop_one_space]; try reflexivity; destruct (N.eqb_spec c 32) as [->|Nc]; cbn [negb drop_one_space N.eqb]; try reflexivity;
        destruct (N.eqb_spec c 32); congruence.
  Qed.
End meta_text.

(** ** A text in which no added token is written *)
Lemma no_match_in sp wd av trie offered s :
  from_offer offered av -> (forall pats p i, trie = Some pats -> In (p, i) pats -> exists t, aget N.eqb i (av_map_r av) = Some t /\ at_content t = p) ->
  none_in offered s -> find_matches sp wd av s trie = Ok [(None, (0, blen s))].
Proof.
  intros FO TR NI. unfold find_matches. destruct s as [|c s]; [reflexivity|]. cbn [is_nil]. destruct trie as [pats|]; [|reflexivity].
  pose proof (leftmost_find_spec pats (length (c :: s)) (c :: s) 0 (le_n _)) as LL. remember (leftmost_find pats 0 0 (c :: s)) as ms eqn:Em. clear Em.
  inversion LL as [b z NO|b gap p i rest ms' NP Ip _ _ _ E1 E2 E3].
  - cbn [find_loop]. assert (L : 0 < blen (c :: s)) by (cbn [blen]; pose proof (len_utf8_pos c); lia).
    destruct (Nat.eqb_spec 0 (blen (c :: s))); [lia|reflexivity].
  - exfalso. destruct (TR pats p i eq_refl Ip) as (t & Et & C). apply (aget_In N.eqb N.eqb_eq) in Et. apply FO in Et. unfold none_in in NI. rewrite Forall_forall in NI.
    specialize (NI t Et). rewrite C in NI. destruct NI as [->|NI]; [congruence|]. apply NI. exists gap, rest. reflexivity.
Qed.

Lemma pass_one sp wd av trie ns : aligned ns -> safe_trie sp av trie -> find_matches sp wd av (n_normalized ns) trie = Ok [(None, (0, blen (n_normalized ns)))] ->
  exists y, split_with_indices sp wd av trie ns = Ok [y] /\ sp_tokens y = None /\ n_normalized (sp_norm y) = n_normalized ns /\ aligned (sp_norm y).
Proof.
  intros A S M. destruct (split_with_indices_cuts sp wd av trie ns A S) as (l & sps & EM & ES & FS & (marks & _ & _ & F)). rewrite M in EM. injection EM as <-.
  inversion FS as [|? y ? ? [Y1 Y2] FS']; subst. inversion FS'; subst. cbn [fst snd] in *. rewrite str_get_full in Y1. injection Y1 as Y1. exists y. split; [exact ES|]. split; [exact Y2|]. split; [congruence|].
  cbn [map] in F. inversion F as [|? ? ? ? [_ X] _]; subst. exact X.
Qed.

Lemma unmatched_section sp wd build m av offered taken s pt :
  model_ok m -> dense m -> added_history build m no_norm av offered taken -> no_strips av -> none_in offered s -> s <> [] ->
  extract_and_normalize sp wd av (fun ns => ns) s = Ok pt -> exists z, pt_splits pt = [z] /\ sp_tokens z = None /\ n_normalized (sp_norm z) = s.
Proof.
  intros MO D H NS NI NE E. pose proof (tries_history _ _ _ _ _ _ MO D H) as TI. pose proof (tries_known _ _ TI) as [K1 K2]. pose proof (history_from _ _ _ _ _ _ H) as FO. destruct TI as [T1 T2].
  assert (T2' : forall pats p i, av_ntrie av = Some pats -> In (p, i) pats -> exists t, aget N.eqb i (av_map_r av) = Some t /\ at_content t = p).
  { intros pats p i EP Hin. destruct (T2 _ _ _ EP Hin) as (t & X & [Y|(f & [] & _)]). eauto. }
  assert (S1 : safe_trie sp av (av_trie av)) by (intros pats P; split; [apply no_strips_safe; exact NS|auto]).
  assert (S2 : safe_trie sp av (av_ntrie av)) by (intros pats P; split; [apply no_strips_safe; exact NS|auto]).
  unfold extract_and_normalize, pt_split in E. cbn [pre_from pre_from_norm pt_splits split_loop sp_tokens sp_norm] in E.
  destruct (pass_one sp wd av (av_trie av) (nfrom s) (nfrom_aligned s) S1) as (y & EY & Y1 & Y2 & Y3).
  { cbn [nfrom n_normalized]. eapply no_match_in; eauto. }
  rewrite EY in E. cbn [bind app] in E. cbn [nfrom n_normalized] in Y2. assert (KY : keep_nonempty [y] = [y]) by (unfold keep_nonempty; cbn [filter]; rewrite Y2; destruct s; [congruence|reflexivity]).
  rewrite KY in E. cbn [app pt_splits split_loop bind] in E. rewrite Y1 in E.
  destruct (pass_one sp wd av (av_ntrie av) (sp_norm y) Y3 S2) as (z & EZ & Z1 & Z2 & _).
  { rewrite Y2. eapply no_match_in; eauto. }
  rewrite EZ in E. cbn [bind app] in E. rewrite Y2 in Z2. assert (KZ : keep_nonempty [z] = [z]) by (unfold keep_nonempty; cbn [filter]; rewrite Z2; destruct s; [congruence|reflexivity]).
  rewrite KZ in E. injection E as <-. exists z. auto.
Qed.

(** ** The ids of a text *)

Lemma meta_tokens mv answer build av offered taken rep scheme sp wd s :
  rep <> 32%N -> is_scalar rep = true -> model_ok mv -> dense mv -> added_history build mv no_norm av offered taken -> no_strips av ->
  text s -> ~ In rep s -> (forall w, word_of rep s w -> spells mv answer w) ->
  exists p1 p2 l3 ts, extract_and_normalize sp wd av (fun ns => ns) s = Ok p1 /\ metaspace_pre_tokenize rep scheme true p1 = Ok p2 /\
    pt_tokenize (fun ns => answer (n_normalized ns)) p2 = Ok (mkPre (pt_original p2) l3) /\ ready (mkPre (pt_original p2) l3) /\ Forall (fun sp0 => solid (sp_norm sp0)) l3 /\
    flat_map tokens_in l3 = concat ts /\ Forall2 (section_said mv rep scheme av) (pt_splits p1) ts /\ concat (split_texts p1) = s /\
    Forall (extracted av) (pt_splits p1) /\
    match pt_splits p1 with [] => True | a :: rest => n_shift (sp_norm a) = 0 /\ Forall (fun x => 0 < n_shift (sp_norm x)) rest end.
Proof.
  intros R32 RS MO DN AH NST TX NR SP.
  destruct (extract_extracted sp wd build mv av offered taken s) as (p1 & E1 & I1 & C1 & X1); auto.
  assert (CH : cut_history (fun _ => False) (nfrom s) p1).
  { pose proof (tries_known _ _ (tries_history _ _ _ _ _ _ MO DN AH)) as [K1 K2]. eapply extract_cuts; [| |exact E1]; intros pats P; (split; [apply no_strips_safe; exact NST|auto]). }
  assert (PRT : Forall (fun sp => exists u v, s = u ++ n_normalized (sp_norm sp) ++ v) (pt_splits p1)).
  { apply Forall_forall. intros x Hx. apply List.in_split in Hx. destruct Hx as (l1 & l2 & Ex). unfold split_texts in C1. rewrite Ex, map_app, concat_app in C1. cbn [map concat] in C1. eauto. }
  assert (SUB : Forall (fun sp => forall c, In c (n_normalized (sp_norm sp)) -> In c s) (pt_splits p1)).
  { apply Forall_forall. intros x Hx c Hc. rewrite <- C1. apply in_concat. exists (n_normalized (sp_norm x)). split; [|exact Hc]. unfold split_texts. apply in_map_iff. eauto. }
  destruct (C65_pieces toy_tables (PtMetaspace rep scheme true) s p1 toy_sane RS I1) as (p2 & gs0 & E2 & G0 & F0 & I2 & L2).
  { eapply Forall_impl; [|exact X1]. intros x G _. apply G. }
  cbn [pre_tokenize] in E2.
  destruct (metaspace_pre_ok rep scheme true p1) as (p2' & gs & E2' & _ & G2 & F2).
  { apply Forall_forall. intros x Hx _. rewrite Forall_forall in X1, SUB. split; [apply (X1 x Hx)|]. intros Y. apply NR. apply (SUB x Hx). exact Y. }
  rewrite E2 in E2'. injection E2' as <-.
  assert (SL : Forall (fun sp0 => solid (sp_norm sp0)) (pt_splits p2)).
  { clear -F2 X1 L2 G2. rewrite G2 in *. clear G2. revert X1 L2. induction F2 as [|a b la lb H _ IH]; intros X1 L2; [constructor|]. apply Forall_cons_iff in X1. destruct X1 as [Xa Xl].
    cbn [concat] in *. apply Forall_app in L2. destruct L2 as [L1 L2]. apply Forall_app. split; [|auto]. unfold meta_group in H. destruct (sp_tokens a) as [ts|].
    - subst b. constructor; [apply Xa|constructor].
    - destruct H as [H _]. rewrite Forall_forall in *. intros x Hx. apply (L1 x Hx), H, Hx. }
  set (f := fun ns : nstring => answer (n_normalized ns)).
  assert (FG : Forall2 (fun sp0 g => exists g', map_res (tokenize_one f) g = Ok g' /\ section_said mv rep scheme av sp0 (flat_map tokens_in g') /\ Forall2 tokenised g g') (pt_splits p1) gs).
  { clear -F2 X1 PRT SP MO DN AH R32 RS NR. revert X1 PRT. induction F2 as [|a b la lb H _ IH]; intros X1 SUB; [constructor|]. apply Forall_cons_iff in X1. destruct X1 as [Xa Xl]. apply Forall_cons_iff in SUB. destruct SUB as [Sa Sl]. constructor; [|auto].
    eapply section_says; eauto.
    }
  destruct (tokenize_groups f (section_said mv rep scheme av) tokenised _ _ FG) as (l3 & E3 & F3 & ts & C3 & S3). rewrite <- G2 in E3, F3.
  exists p1, p2, l3, ts. split; [exact E1|]. split; [exact E2|]. split; [unfold pt_tokenize; rewrite E3; reflexivity|].
  split; [eapply tokenised_ready; eauto|]. split; [|split; [exact C3|split; [exact S3|split; [exact C1|split; [exact X1|]]]]].
  - clear -F3 SL. induction F3 as [|a b la lb (E & _) _ IH]; [constructor|]. apply Forall_cons_iff in SL. destruct SL. constructor; [rewrite E; assumption|auto].
  - destruct (pt_splits p1) as [|a rest] eqn:EP; [exact Logic.I|]. eapply section_places; eauto.
Qed.

Lemma meta_ids t mv rep scheme offered s ty ot :
  metaspace_tokenizer t mv rep scheme offered -> model_ok mv -> dense mv -> tz_truncation t = None -> text s -> ~ In rep s -> (forall w, word_of rep s w -> spells mv (tz_model t) w) ->
  (exists e, encode_part t ty ot None s = Ok e) /\
  exists toks parts,
    (forall e, encode_part t ty ot None s = Ok e -> ids e = map t_id toks) /\ Forall (token_named mv (tz_added t)) toks /\
    concat (map snd parts) = s /\ (forall x, In (true, x) parts -> exists tk, In tk offered /\ at_content tk = x) /\
    DecodersModel.decode_tokens (DMetaspace rep scheme) (map t_value toks) = Ok (shown_parts scheme parts) /\
    (none_in offered s -> parts = match s with [] => [] | _ => [(false, s)] end /\ exists puts, concat (map t_value toks) = marked rep (with_space puts s) /\ Forall (fun tk => t_value tk <> []) toks).
Proof.
  intros ((RS & R32) & (H4 & H5) & (build & taken & AH) & NS) MO DN H7 TX NR SP.
  pose proof (history_from _ _ _ _ _ _ AH) as FO.
  assert (NST : no_strips (tz_added t)).
  { intros i x E. apply (aget_In N.eqb N.eqb_eq) in E. apply FO in E. rewrite Forall_forall in NS. apply NS. exact E. }
  destruct (meta_tokens mv (tz_model t) build (tz_added t) offered taken rep scheme (tz_space t) (tz_word t) s) as (p1 & p2 & l3 & ts & E1 & E2 & E3 & R & SL & C & F & CS & X1 & PL); auto.
  assert (EP : encode_part t ty ot None s = into_encoding (mkPre (pt_original p2) l3) None ty ot).
  { unfold encode_part. rewrite H4, E1. cbn [bind]. unfold do_pre_tokenize. rewrite H5, E2. cbn [bind]. unfold do_tokenize, token_limit. rewrite H7.
    unfold tokenize_in. rewrite E3. reflexivity. }
  rewrite EP. split; [apply ready_encodes; [exact R|exact SL]|].
  exists (concat ts), (map part_of_split (pt_splits p1)). split; [intros e He; apply into_encoding_ids in He; cbn [pt_splits] in He; rewrite <- C; exact He|].
  split; [apply Forall_concat; clear -F; induction F as [|a b la lb [H _] _ IH]; constructor; assumption|].
  split; [rewrite map_map; exact CS|]. split; [|split].
  - intros x Hx. apply in_map_iff in Hx. destruct Hx as (y & E & Hy). rewrite Forall_forall in X1. destruct (X1 _ Hy) as (_ & _ & AD). unfold part_of_split in E.
    destruct (sp_tokens y) as [tk|] eqn:Ey; [|discriminate]. injection E as <-. destruct (AD tk eq_refl) as (i & a & _ & Ei & CC). exists a. split; [|exact CC]. apply (aget_In N.eqb N.eqb_eq) in Ei. eapply FO; eauto.
  - eapply sections_decoded; eauto. apply Forall_forall. intros x Hx. rewrite Forall_forall in X1. split; [apply (X1 x Hx)|]. intros c Hc. rewrite <- CS. apply in_concat. exists (n_normalized (sp_norm x)). split; [|exact Hc]. unfold split_texts. apply in_map_iff. eauto.
  - intros NI. destruct (list_eq_dec N.eq_dec s []) as [Z|NZ].
    + rewrite Z in CS. unfold split_texts in CS. destruct (pt_splits p1) as [|a r].
      * subst s. split; [reflexivity|]. inversion F; subst. exists false. split; [reflexivity|constructor].
      * exfalso. cbn [map concat] in CS. apply app_eq_nil in CS. apply Forall_cons_iff in X1. destruct X1 as [(X1 & _) _]. destruct CS as [CS _]. congruence.
    + destruct (unmatched_section _ _ _ _ _ _ _ _ _ MO DN AH NST NI NZ E1) as (z & EZ & Z1 & Z2). rewrite EZ in *. split.
      * cbn [map]. unfold part_of_split. rewrite Z1, Z2. destruct s; [congruence|reflexivity].
      * inversion F as [|? tz ? ? [_ S1] F']; subst. inversion F'; subst. rewrite Z1 in S1. destruct S1 as (S1 & S2 & _). cbn [concat]. rewrite app_nil_r. unfold put_part in S1. rewrite Z1, Z2 in S1. eauto.
Qed.

(** ** The models *)
Lemma from_loop_keys {W} (A : arith W) vocab : forall id ids trie lo ids' trie' lo', NoDup (map fst ids ++ map fst vocab) ->
  from_loop A id vocab ids trie lo = (ids', trie', lo') -> map fst ids' = map fst ids ++ map fst vocab.
Proof.
  induction vocab as [|[x w] vocab IH]; intros id ids trie lo ids' trie' lo' ND E; cbn [from_loop] in E; [injection E as <- _ _; cbn [map]; rewrite app_nil_r; reflexivity|].
  cbn [map fst] in ND. assert (K : map fst (aset str_eqb x id ids) = map fst ids ++ [x]).
  { rewrite aset_keys. unfold amem. destruct (aget str_eqb x ids) as [v|] eqn:EM; [|reflexivity]. exfalso. apply NoDup_remove_2 in ND. apply ND. apply in_or_app. left. apply (aget_In str_eqb str_eqb_eq) in EM. apply in_map_iff. exists (x, v). auto. }
  apply IH in E; rewrite K in *; rewrite <- app_assoc in *; [exact E|exact ND].
Qed.

Lemma uni_model_ok {W} (A : arith W) m : made A m -> NoDup (map fst (u_vocab m)) -> model_ok (model_vocabulary (MUnigram m)) /\ dense (model_vocabulary (MUnigram m)).
Proof.
  intros MD ND. pose proof (made_wf A m MD) as WF.
  assert (K : map fst (u_ids m) = map fst (u_vocab m)).
  { destruct MD as (vocab & unk & fb & m0 & lo & UF & _ & ->). cbn [u_ids u_vocab] in *. unfold uni_from in UF. destruct (from_loop A 0 vocab [] TrieModel.tnode0 (a_inf A)) as [[ids trie] mn] eqn:EL.
    assert (E : m0 = mkUni ids vocab trie mn unk (N.of_nat (length vocab) + 1) (N.of_nat (length vocab) + 2) true fb).
    { destruct unk as [k|]; [destruct (is_nil vocab); [discriminate|]; destruct (N.leb _ k); [discriminate|]|]; injection UF as <-; reflexivity. }
    subst m0. cbn [u_ids u_vocab] in *. apply from_loop_keys in EL; [exact EL|exact ND]. }
  assert (NK : NoDup (map fst (u_ids m))) by (rewrite K; exact ND).
  split.
  - constructor; cbn [model_vocabulary mv_vocab mv_token_to_id mv_id_to_token mv_size].
    + exact NK.
    + intros t i. unfold uni_token_to_id. split; intros H; [apply (aget_In str_eqb str_eqb_eq); exact H|apply (In_aget str_eqb str_eqb_eq); assumption].
    + intros t i. unfold uni_token_to_id, uni_id_to_token, u_item. rewrite (wf_ids _ WF). split.
      * intros H. destruct (nth_error (u_vocab m) (N.to_nat i)) as [[x w]|] eqn:EN; [|discriminate]. injection H as ->. exists w. split; [exact EN|]. intros j u L EJ.
        pose proof (map_nth_error fst _ _ EN) as Q1. pose proof (map_nth_error fst _ _ EJ) as Q2. cbn [fst] in *. rewrite NoDup_nth_error in ND.
        assert (N.to_nat i = j) by (apply ND; [apply nth_error_Some; congruence|congruence]). lia.
      * intros (w & H & _). rewrite H. reflexivity.
    + rewrite <- (map_length fst (u_ids m)), K, map_length. reflexivity.
  - intros t i. cbn [model_vocabulary mv_token_to_id mv_size]. unfold uni_token_to_id. rewrite (wf_ids _ WF). intros (w & H & _). assert (N.to_nat i < length (u_vocab m)) by (apply nth_error_Some; congruence). lia.
Qed.

Lemma fused_texts {W} (m : unigram W) seg pieces : Forall (fun it => ~ unknown_item m it) seg -> fused m seg pieces -> pieces = texts seg.
Proof.
  intros F H. induction H as [|it seg pieces N1 H IH|us seg pieces NE U N1 H IH]; [reflexivity|inversion F; subst; cbn [texts map]; f_equal; auto|].
  exfalso. destruct us as [|it us]; [congruence|]. inversion F; subst. inversion U; subst. contradiction.
Qed.

Lemma uni_spells {W} (A : arith W) ok m w : made A m -> scores_ok A ok m -> text_ok w ->
  (forall c, In c w -> In [c] (map fst (u_vocab m))) ->
  (forall k u, u_unk m = Some k -> uni_id_to_token m k = Some u -> ~ occurs u w) ->
  spells (model_vocabulary (MUnigram m)) (fun s => boxed (uni_tokenize A m None s)) w.
Proof.
  intros MD SO TW KC NU. pose proof (made_wf A m MD) as WF.
  destruct (C43_succeeds A ok m w MD SO TW (or_intror KC)) as (ps & EP).
  destruct (C43_pieces A ok m w None ps MD SO TW ltac:(intros c X; discriminate) EP) as ((seg & [SI SC] & FU) & CC & _).
  assert (SUB : forall x id sc, In (x, id, sc) seg -> occurs x w).
  { intros x id sc Hit. rewrite <- SC. apply List.in_split in Hit. destruct Hit as (l1 & l2 & ->). exists (concat (texts l1)), (concat (texts l2)). unfold texts. rewrite map_app, concat_app. reflexivity. }
  assert (KP : Forall (fun it => fst (fst it) <> [] /\ exists wt, last_entry (u_vocab m) (fst (fst it)) (snd (fst it)) wt) seg).
  { rewrite Forall_forall. intros [[x id] sc] Hit. rewrite Forall_forall in SI. pose proof (SI _ Hit) as Q. cbn in Q |- *. destruct Q as [[NE Q]|(c & -> & NI & _)]; [eauto|]. exfalso. apply NI, KC.
    destruct (SUB _ _ _ Hit) as (a & b & ->). apply in_or_app. right. left. reflexivity. }
  assert (UN : Forall (fun it => ~ unknown_item m it) seg).
  { rewrite Forall_forall. intros [[x id] sc] Hit U. unfold unknown_item in U. cbn [fst snd] in U. rewrite Forall_forall in KP. destruct (KP _ Hit) as (_ & wt & LE & _). cbn [fst snd] in LE.
    apply (NU id x U); [unfold uni_id_to_token, u_item; rewrite LE; reflexivity|eapply SUB; exact Hit]. }
  apply (fused_texts m seg ps UN) in FU. subst ps.
  assert (G : forall (sg : list (str * N * W)) from acc, Forall (fun it => fst (fst it) <> [] /\ exists wt, last_entry (u_vocab m) (fst (fst it)) (snd (fst it)) wt) sg ->
     exists toks, uni_tokens m from (texts sg) acc = Ok (acc ++ toks) /\ concat (map t_value toks) = concat (texts sg) /\
       Forall (fun t => t_value t <> [] /\ uni_token_to_id m (t_value t) = Some (t_id t) /\ fst (t_offsets t) < snd (t_offsets t) <= from + blen (concat (texts sg))) toks).
  { induction sg as [|it sg IH]; intros from acc F; [exists []; rewrite app_nil_r; auto|]. inversion F as [|? ? [K1 K2] F']; subst. apply (wf_ids _ WF) in K2.
    cbn [texts map uni_tokens]. rewrite K2. destruct (IH (from + blen (fst (fst it))) (acc ++ [mkTok (snd (fst it)) (fst (fst it)) (from, from + blen (fst (fst it)))]) F') as (toks & E & V1 & V2).
    exists (mkTok (snd (fst it)) (fst (fst it)) (from, from + blen (fst (fst it))) :: toks). unfold texts in E. rewrite E, <- app_assoc. cbn [map t_value t_id app concat]. unfold texts in V1, V2. rewrite V1. split; [reflexivity|]. split; [reflexivity|].
    rewrite blen_app. assert (0 < blen (fst (fst it))) by (destruct (fst (fst it)) as [|c z]; [congruence|]; cbn [blen]; pose proof (len_utf8_pos c); lia).
    constructor; cbn [t_value t_id t_offsets fst snd]; [split; [exact K1|]; split; [exact K2|lia]|]. eapply Forall_impl; [|exact V2]. cbn beta. intros t (H1 & H2 & H3). split; [exact H1|]. split; [exact H2|lia]. }
  destruct (G seg 0 [] KP) as (toks & E & V1 & V2). exists toks. unfold uni_tokenize. rewrite EP. cbn [bind]. cbn [app] in E. rewrite E. cbn [boxed]. split; [reflexivity|]. split; [rewrite V1; exact SC|].
  cbn [model_vocabulary mv_token_to_id]. rewrite SC in V2. cbn [Nat.add] in V2. exact V2.
Qed.

Lemma bpe_spells pop vocab merges m draws w : heap_ok pop -> built vocab merges None m -> b_suffix m = None -> NoDup (map snd vocab) ->
  ~ In [] (map fst vocab) -> (forall c, In c w -> In [c] (map fst vocab)) -> spells (bpe_vocabulary m) (bpe_model pop m draws) w.
Proof.
  intros HP BT NS ND NN AL. destruct (bpe_values pop vocab merges m (draws w) w HP BT NS ND AL) as (toks & E1 & C1 & V1 & O1).
  exists toks. split; [unfold bpe_model; rewrite E1; reflexivity|]. split; [exact C1|]. rewrite Forall_forall in *. intros t Ht. specialize (V1 t Ht). specialize (O1 t Ht). split; [|split; [|exact O1]].
  - intros X. apply NN. rewrite <- X. apply in_map_iff. exists (t_value t, t_id t). auto.
  - cbn [bpe_vocabulary mv_token_to_id]. apply (mo_read _ (bpe_model_ok _ _ _ _ BT ND)). cbn [bpe_vocabulary mv_vocab]. destruct BT as [D1 (d & unk & sf & fu & fb & ig & B)]. apply build_facts in B. rewrite (bf_vocab _ _ _ _ B). exact V1.
Qed.

(** Parts of the words of a text. *)
Lemma word_chars rep s w c : word_of rep s w -> In c w -> c = rep \/ (In c s /\ c <> 32%N).
Proof.
  intros (_ & a & x & b & -> & EW) Hc. assert (M : In c (marked rep x) -> c = rep \/ (In c (a ++ x ++ b) /\ c <> 32%N)).
  { intros H. unfold marked in H. apply in_map_iff in H. destruct H as (y & Ey & Hy). destruct (N.eqb_spec y 32) as [E32|N32]; [left; congruence|]. rewrite <- Ey. right. split; [|exact N32]. apply in_or_app. right. apply in_or_app. left. exact Hy. }
  destruct EW as [->| ->]; [auto|]. destruct Hc as [<-|Hc]; [left; reflexivity|auto].
Qed.

Lemma unmarked_part rep s w u : word_of rep s w -> ~ In rep u -> u <> [] -> occurs u w -> occurs u s.
Proof.
  intros (_ & a & x & b & -> & EW) NR NE (p & q & E).
  assert (M : forall p, marked rep x = p ++ u ++ q -> occurs u (a ++ x ++ b)).
  { intros p0 X. unfold marked in X. apply map_eq_app in X. destruct X as (x1 & x2 & -> & <- & X). apply map_eq_app in X. destruct X as (x3 & x4 & -> & X3 & <-).
    assert (x3 = u) as ->; [|exists (a ++ x1), (x4 ++ b); rewrite <- !app_assoc; reflexivity].
    rewrite <- X3. symmetry. rewrite <- (map_id x3) at 2. apply map_ext_in. intros c Hc. destruct (N.eqb_spec c 32) as [->|]; [|reflexivity]. exfalso. apply NR. rewrite <- X3. apply in_map_iff. exists 32%N. auto. }
  destruct EW as [->| ->]; [eapply M; exact E|]. destruct p as [|y p]; [|injection E as <- E; eapply M; exact E].
  destruct u as [|y u]; [congruence|]. injection E as <- _. destruct NR. left. reflexivity.
Qed.
