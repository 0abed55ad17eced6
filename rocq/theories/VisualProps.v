(** C92: the page of [EncodingVisualizer]. *)
From Coq Require Import ZArith String.
From Verif Require Import Base ListFacts StrBytes EncodingModel PreTokModel TokenizerModel EndToEndSpec EndToEndProps VisualModel VisualSpec VisualProofs VisualEncModel VisualEncProofs.

(** The page is well formed HTML, the characters of the text are on it once each and in
    order, whatever they are, and every one is in a span that says which token it is in
    and, inside the span of its annotation, which label it has. *)
Theorem C92_page : forall text toks annos,
  text <> [] -> tokens_fit text toks -> annos_fit text annos -> no_quotes toks annos ->
  exists h l, make_html text toks annos = Ok h /\ read_page h = Some l /\ map fst l = text /\
    forall i c tags, nth_error l i = Some (c, tags) -> shown_in toks annos i tags.
Proof.
  intros text toks annos NE TF AF NQ. destruct (html_ok text toks annos NQ NE TF AF) as (h & l & E & R & L & G). exists h, l. split; [exact E|]. split; [exact R|]. split.
  - apply nth_ext_error; [rewrite map_length; exact L|]. intros i Hi. rewrite map_length in Hi. rewrite nth_error_map. destruct (nth_error l i) as [x|] eqn:Ex; [|apply nth_error_None in Ex; lia].
    destruct (G i x Ex) as [A _]. cbn [Nat.add] in A. cbn [option_map]. symmetry. exact A.
  - intros i c tags H. destruct (G i _ H) as [_ B]. exact B.
Qed.

(** With character offsets, no offset of an encoding of a text is past its end, whatever
    the post-processor, truncation and padding are (an empty range at the end is given in
    bytes: see C23). *)
Theorem C62_chars : forall t s add e,
  sound t -> encode t OChar (Single (Raw s)) add = Ok e ->
  Forall (fun o => fst o <= snd o /\ (fst o < snd o -> snd o <= length s)) (offsets e).
Proof.
  intros t s add e SO H. cbn [encode] in H. destruct (encode_single t (Raw s) 0 OChar) as [e0| |] eqn:E; try discriminate. cbn [other bind] in H.
  exact (post_within _ t e0 add e (text_within t s e0 SO E) H).
Qed.

(** So every text that a tokenizer encodes has its page: it shows the tokens of the
    encoding, each at the range that [token_to_chars] gives. *)
Theorem C92_encoded : forall t s add e annos toks,
  sound t -> encode t OChar (Single (Raw s)) add = Ok e ->
  (forall i, nth_error toks i = match nth_error (tokens e) i with Some tok => Some (tok, option_map snd (token_to_chars e i)) | None => None end) ->
  s <> [] -> annos_fit s annos -> no_quotes toks annos ->
  exists h l, make_html s (encoding_tokens e) annos = Ok h /\ read_page h = Some l /\ map fst l = s /\
    forall i c tags, nth_error l i = Some (c, tags) -> shown_in toks annos i tags.
Proof.
  intros t s add e annos toks SO H TE NE AF NQ. assert (E : toks = encoding_tokens e).
  { apply nth_error_ext. intros i. rewrite TE. unfold encoding_tokens. rewrite nth_error_map.
    destruct (nth_error (tokens e) i) as [tok|] eqn:Et.
    - assert (L : i < length (tokens e)) by (apply nth_error_Some; congruence). rewrite (nth_combine _ _ i i tok (nth_seq _ 0 i L) Et). reflexivity.
    - assert (X : nth_error (combine (seq 0 (length (tokens e))) (tokens e)) i = None) by (apply nth_error_None; rewrite combine_length, seq_length; apply nth_error_None in Et; lia). rewrite X. reflexivity. }
  subst toks. apply C92_page; auto. eapply encoding_fits; eauto.
Qed.
Example ex_encoded : sound demo /\ exists e, encode demo OChar (Single (Raw [233; 32; 60; 115; 62; 233]%N)) true = Ok e /\
  map snd (encoding_tokens e) = [Some (0, 1); Some (2, 5); Some (5, 6)] /\ no_quotes (encoding_tokens e) [mkAnno 2 5 (lit "tag")] /\
  exists h, make_html [233; 32; 60; 115; 62; 233]%N (encoding_tokens e) [mkAnno 2 5 (lit "tag")] = Ok h /\
    option_map (map fst) (read_page h) = Some [233; 32; 60; 115; 62; 233]%N.
Proof.
  split; [exact demo_sound|]. eexists. split; [vm_compute; reflexivity|]. split; [vm_compute; reflexivity|]. split.
  - split; [|constructor; [cbn; intuition discriminate|constructor]]. cbn. repeat (apply Forall_cons; [intros _; cbn; intuition discriminate|]). constructor.
  - eexists. split; vm_compute; reflexivity.
Qed.

(** Two annotations have the same colour exactly if they have the same label; if there are
    at most 18 different labels then the colours are really different ones, as hues are
    read modulo 360. *)
Theorem C92_colors : forall annos a b ls,
  In a annos -> In b annos -> NoDup ls -> (forall x, In x ls <-> In x (map a_label annos)) ->
  exists h k, label_hue annos (a_label a) = Some h /\ label_hue annos (a_label b) = Some k /\
    (h = k <-> a_label a = a_label b) /\
    (length ls <= 18 -> (h mod 360)%N = (k mod 360)%N -> a_label a = a_label b).
Proof.
  intros annos a b ls IA IB ND EX. pose proof (rising_nodup _ (labels_rising annos)) as NS.
  assert (LS : length ls = length (sorted_labels annos)).
  { apply Nat.le_antisymm; apply NoDup_incl_length; try assumption; intros x I; [apply sorted_in, EX|apply EX, (sorted_in annos)]; exact I. }
  assert (HA : In (a_label a) (sorted_labels annos)) by (apply sorted_in, in_map, IA).
  assert (HB : In (a_label b) (sorted_labels annos)) by (apply sorted_in, in_map, IB).
  destruct (rank_some _ _ HA) as (i & RA). destruct (rank_some _ _ HB) as (j & RB). unfold label_hue. rewrite RA, RB. set (n := length (sorted_labels annos)) in *.
  pose proof (rank_nth _ _ _ RA) as NA. pose proof (rank_nth _ _ _ RB) as NB.
  assert (Li : i < n) by (apply nth_error_Some; rewrite NA; discriminate). assert (Lj : j < n) by (apply nth_error_Some; rewrite NB; discriminate).
  assert (EQ : i = j -> a_label a = a_label b) by (intros ->; rewrite NA in NB; congruence).
  assert (H20 : (20 <= h_step n)%N) by (unfold h_step; lia).
  do 2 eexists. split; [reflexivity|]. split; [reflexivity|]. split; [split|].
  - intros H. apply EQ. nia.
  - intros H. rewrite H, RB in RA. congruence.
  - intros H18 HM. apply EQ. rewrite LS in H18.
    assert (UP : forall k, k < n -> (10 + N.of_nat k * h_step n < 360)%N).
    { intros k Hk. assert (UB : (h_step n = 20 \/ N.of_nat n * h_step n <= 255)%N).
      { unfold h_step. destruct (N.max_spec 20 (255 / N.of_nat n)) as [[_ ->]|[_ ->]]; [right; apply N.mul_div_le; lia|left; reflexivity]. }
      destruct UB as [UB|UB]; [rewrite UB; lia|nia]. }
    rewrite !N.mod_small in HM by (apply UP; assumption). nia.
Qed.

(** Not vacuous: a text with "<", "&" and quotes, two words in annotations, an unknown
    token and characters of no token. *)
Definition ex_text : str := lit "a<b & ""c""".
Definition ex_toks : list shown_token := [(lit "[CLS]", None); (lit "a", Some (0, 1)); (lit "<b", Some (1, 3)); (lit "[UNK]", Some (4, 5)); (lit "c", Some (6, 9))].
Definition ex_annos : list annotation := [mkAnno 0 3 (lit "X"); mkAnno 6 9 (lit "Y"); mkAnno 7 8 (lit "X")].
Example ex_fits : ex_text <> [] /\ tokens_fit ex_text ex_toks /\ annos_fit ex_text ex_annos /\ no_quotes ex_toks ex_annos.
Proof.
  split; [discriminate|]. split; [|split].
  - repeat (apply Forall_cons; [cbn [snd]; intros a b E; (discriminate E || (injection E as <- <-; cbn; lia))|]). constructor.
  - repeat (apply Forall_cons; [cbn; lia|]). constructor.
  - split; [repeat (apply Forall_cons; [intros _; cbn; intuition discriminate|])|repeat (apply Forall_cons; [cbn; intuition discriminate|])]; constructor.
Qed.
Example ex_page : match make_html ex_text ex_toks ex_annos with
                  | Ok h => option_map (map (fun x => (fst x, length (snd x)))) (read_page h)
                  | _ => None
                  end = Some (combine ex_text [2; 2; 2; 1; 1; 1; 2; 2; 2]).
Proof. vm_compute. reflexivity. Qed.
Example ex_colors : map (fun a => label_hue ex_annos (a_label a)) ex_annos = [Some 10%N; Some 137%N; Some 10%N].
Proof. vm_compute. reflexivity. Qed.
Example ex_labels : NoDup [lit "X"; lit "Y"] /\ forall x, In x [lit "X"; lit "Y"] <-> In x (map a_label ex_annos).
Proof. split; [repeat constructor; cbn; intuition discriminate|]. intros x. cbn. intuition. Qed.

(** ** Findings *)
(** The empty text is an error: the first of no characters is looked at. *)
Theorem C92_empty_refuted : forall toks, tokens_fit [] toks -> make_html [] toks [] = Err tt.
Proof.
  intros toks TF. pose proof (states_ok [] toks [] TF (Forall_nil _)) as E. unfold make_html. rewrite E. reflexivity.
Qed.
(** A token of the vocabulary with "unk" in it is shown as a special one: "chunk". *)
Theorem C92_unk_refuted : exists text toks h l c tag,
  toks = [(lit "chunk", Some (0, 5))] /\ make_html text toks [] = Ok h /\ read_page h = Some l /\ text = lit "chunk" /\ nth_error l 0 = Some (c, [tag]) /\
  tag = span_tag [lit "token"; lit "even-token"; lit "special-token"] (lit " data-stok=" ++ quote ++ lit "chunk" ++ quote).
Proof.
  exists (lit "chunk"), [(lit "chunk", Some (0, 5))]. do 4 eexists. split; [reflexivity|]. split; [vm_compute; reflexivity|]. split; [vm_compute; reflexivity|]. repeat split.
Qed.
(** Labels are not escaped: with a quote in it a label puts text on the page that is not
    in the text. *)
Theorem C92_label_refuted : exists text annos h l,
  annos_fit text annos /\ make_html text [(lit "a", Some (0, 1))] annos = Ok h /\ read_page h = Some l /\ text = lit "a" /\ map fst l = lit "y"">a".
Proof.
  exists (lit "a"), [mkAnno 0 1 (lit "x"">y")]. do 2 eexists. split; [constructor; [cbn; lia|constructor]|]. split; [vm_compute; reflexivity|]. split; [vm_compute; reflexivity|]. repeat split.
Qed.
(** An annotation with a negative start is on the last characters of the text too. *)
Theorem C92_negative_refuted : exists text annos h l c tags,
  Forall (fun a => ~ noted a 2) annos /\ make_html text [] annos = Ok h /\ read_page h = Some l /\ length text = 3 /\ nth_error l 2 = Some (c, tags) /\ length tags = 2.
Proof.
  exists (lit "abc"), [mkAnno (-1) 1 (lit "X")]. do 4 eexists. split; [constructor; [unfold noted; cbn; lia|constructor]|]. split; [vm_compute; reflexivity|]. split; [vm_compute; reflexivity|]. repeat split.
Qed.
(** The special tokens that a template adds are never shown: the page is the one without
    them, but for the parity of the others. *)
Theorem C92_special_refuted : exists text toks h,
  toks = [(lit "[CLS]", None); (lit "a", Some (0, 1)); (lit "[SEP]", None)] /\ text = lit "a" /\ make_html text toks [] = Ok h /\
  make_html text [(lit "[PAD]", None); (lit "a", Some (0, 1))] [] = Ok h.
Proof. do 3 eexists. split; [reflexivity|]. split; [reflexivity|]. split; vm_compute; reflexivity. Qed.
(** "multi-token" is said of a span by its first character only: the second character is
    in two tokens, and no span says so. *)
Theorem C92_multi_refuted : exists text toks h l c tags,
  tokens_fit text toks /\ two_over toks 1 /\ make_html text toks [] = Ok h /\ read_page h = Some l /\ nth_error l 1 = Some (c, tags) /\
  tags = [span_tag [lit "token"; lit "even-token"] []].
Proof.
  exists (lit "ab"), [(lit "x", Some (0, 2)); (lit "y", Some (1, 2))]. do 4 eexists. split; [|split; [|split; [vm_compute; reflexivity|split; [vm_compute; reflexivity|repeat split]]]].
  - repeat (apply Forall_cons; [cbn [snd]; intros a b E; injection E as <- <-; cbn; lia|]). constructor.
  - exists [], (lit "x", Some (0, 2)), [], (lit "y", Some (1, 2)), []. split; [reflexivity|]. split; [exists 0, 2|exists 1, 2]; (split; [reflexivity|lia]).
Qed.
(** With 19 labels two of them have the same colour. *)
Theorem C92_hue_refuted : exists annos a b h k,
  In a annos /\ In b annos /\ a_label a <> a_label b /\ label_hue annos (a_label a) = Some h /\ label_hue annos (a_label b) = Some k /\ (h mod 360)%N = (k mod 360)%N.
Proof.
  exists (map (fun c => mkAnno 0 1 [c]) (lit "abcdefghijklmnopqrs")), (mkAnno 0 1 (lit "a")), (mkAnno 0 1 (lit "s")). do 2 eexists.
  split; [left; reflexivity|]. split; [do 18 right; left; reflexivity|]. split; [discriminate|]. split; [vm_compute; reflexivity|]. split; vm_compute; reflexivity.
Qed.
