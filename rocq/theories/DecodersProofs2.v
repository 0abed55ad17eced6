(** Proofs about the byte-level alphabet, its decoder and its pre-tokeniser. *)
From Coq Require Import ZArith.
From Verif Require Import Base ListFacts AMap StrBytes Utf8 PatternModel PatternSpec PatternProofs EncodingModel NormModel NormSpec NormProofs NormProofs3 NormProofs6 NormProps
  PreTokModel PreTokSpec PreTokProofs BpeModel ByteLevelModel DecodersModel DecodersSpec.

(** ** The alphabet *)
Definition bytes_below : list N := map N.of_nat (seq 0 256).
Lemma bytes_below_In b : (b < 256)%N -> In b bytes_below.
Proof. intros H. apply in_map_iff. exists (N.to_nat b). split; [lia|]. apply in_seq. lia. Qed.

Definition eqb_opt (a b : option N) : bool := match a, b with Some x, Some y => N.eqb x y | None, None => true | _, _ => false end.
Lemma eqb_opt_eq a b : eqb_opt a b = true -> a = b.
Proof. destruct a, b; cbn; try discriminate; [|reflexivity]. intros H. apply N.eqb_eq in H. congruence. Qed.

Lemma alphabet_check : forallb (fun b => eqb_opt (bytes_char b) (Some (byte_char b)) && eqb_opt (char_bytes (byte_char b)) (Some b)
   && is_scalar (byte_char b) && (N.leb 33 (byte_char b)) && (N.ltb (byte_char b) 324) && negb (N.leb 127 (byte_char b) && N.leb (byte_char b) 160) && negb (N.eqb (byte_char b) 173)) bytes_below = true.
Proof. vm_compute. reflexivity. Qed.

Lemma alphabet b : (b < 256)%N ->
  bytes_char b = Some (byte_char b) /\ char_bytes (byte_char b) = Some b /\ is_scalar (byte_char b) = true /\
  (33 <= byte_char b < 324)%N /\ ~ (127 <= byte_char b <= 160)%N /\ byte_char b <> 173%N.
Proof.
  intros H. apply bytes_below_In in H. pose proof alphabet_check as C. rewrite forallb_forall in C. specialize (C b H).
  repeat (apply andb_true_iff in C; destruct C as [C ?]). repeat split; try (apply eqb_opt_eq; assumption); try assumption; lia.
Qed.

Lemma byte_char_inj a b : (a < 256)%N -> (b < 256)%N -> byte_char a = byte_char b -> a = b.
Proof. intros A B E. apply alphabet in A, B. destruct A as (_ & A & _), B as (_ & B & _). rewrite E in A. congruence. Qed.

Lemma char_bytes_check : forallb (fun p => N.ltb (snd p) 256 && N.eqb (byte_char (snd p)) (fst p)) char_bytes_table = true.
Proof. vm_compute. reflexivity. Qed.
Lemma char_bytes_inv c b : char_bytes c = Some b -> (b < 256)%N /\ c = byte_char b.
Proof.
  intros H. unfold char_bytes in H.
  assert (I : In (c, b) char_bytes_table).
  { clear - H. revert H. generalize char_bytes_table as m. induction m as [|[k v] m IH]; cbn [aget]; [discriminate|].
    destruct (N.eqb_spec c k) as [->|]; [intros H; injection H as ->; left; reflexivity|]. intros H. right. auto. }
  pose proof char_bytes_check as C. rewrite forallb_forall in C. specialize (C _ I). cbn [fst snd] in C. lia.
Qed.
Lemma alphabet_outside b : (256 <= b)%N -> bytes_char b = None.
Proof.
  intros H. assert (C : forallb (fun p => N.ltb (fst p) 256) bytes_char_table = true) by (vm_compute; reflexivity).
  unfold bytes_char. destruct (aget N.eqb b bytes_char_table) as [c|] eqn:E; [|reflexivity]. exfalso. revert C E. generalize bytes_char_table as m.
  induction m as [|[k v] m IH]; cbn [aget forallb fst]; [discriminate|]. intros C. apply andb_true_iff in C. destruct C as [C1 C2].
  destruct (N.eqb_spec b k); [lia|]. apply IH; exact C2.
Qed.

(** ** Decoding *)
Lemma map_opt_ok {A B} (f : A -> option B) l l' : Forall2 (fun a b => f a = Some b) l l' -> map_opt f l = Some l'.
Proof. induction 1 as [|a b l l' H _ IH]; cbn [map_opt]; [reflexivity|]. rewrite H, IH. reflexivity. Qed.

Lemma token_bytes_image bs : Forall (fun b => b < 256)%N bs -> token_bytes (map byte_char bs) = bs.
Proof.
  intros F. unfold token_bytes. rewrite (map_opt_ok char_bytes (map byte_char bs) bs); [reflexivity|].
  induction F as [|b bs H _ IH]; cbn [map]; constructor; [|exact IH]. apply alphabet; exact H.
Qed.

Lemma map_opt_none {A B} (f : A -> option B) l a : In a l -> f a = None -> map_opt f l = None.
Proof.
  induction l as [|x l IH]; intros I H; [destruct I|]. cbn [map_opt]. destruct I as [->|I]; [rewrite H; reflexivity|].
  destruct (f x); [|reflexivity]. rewrite IH by assumption. reflexivity.
Qed.

Lemma token_bytes_foreign t c : In c t -> (forall b, (b < 256)%N -> byte_char b <> c) -> token_bytes t = encode_utf8 t.
Proof.
  intros I H. unfold token_bytes. rewrite (map_opt_none char_bytes t c I); [reflexivity|].
  destruct (char_bytes c) as [b|] eqn:E; [|reflexivity]. apply char_bytes_inv in E. destruct E as [E1 E2]. exfalso. exact (H b E1 (eq_sym E2)).
Qed.

Lemma concat_map_split {A B} (f : A -> B) : forall (toks : list (list B)) (l : list A), concat toks = map f l ->
  exists ls, concat ls = l /\ toks = map (map f) ls.
Proof.
  induction toks as [|t toks IH]; intros l H; cbn [concat] in H.
  - destruct l; [|discriminate]. exists []. split; reflexivity.
  - assert (E : t = map f (firstn (length t) l)).
    { rewrite <- firstn_map, <- H, firstn_app, Nat.sub_diag, firstn_O, app_nil_r, firstn_all. reflexivity. }
    assert (E2 : concat toks = map f (skipn (length t) l)).
    { rewrite <- skipn_map, <- H, skipn_app, Nat.sub_diag, skipn_all. reflexivity. }
    destruct (IH _ E2) as (ls & Hl & Ht). exists (firstn (length t) l :: ls). cbn [concat map]. rewrite Hl, firstn_skipn, <- E, <- Ht. split; reflexivity.
Qed.

Lemma encode_utf8_range s : text s -> Forall (fun b => b < 256)%N (encode_utf8 s).
Proof. intros T. apply encode_utf8_bytes. exact T. Qed.

Lemma image_bytes toks s : text s -> concat toks = byte_image s -> flat_map token_bytes toks = encode_utf8 s.
Proof.
  intros T H. apply concat_map_split in H. destruct H as (ls & Hl & ->). rewrite <- Hl. pose proof (encode_utf8_range s T) as F. rewrite <- Hl in F. clear -F.
  induction ls as [|l ls IH]; [reflexivity|]. cbn [concat] in F. apply Forall_app in F. destruct F as [F1 F2].
  cbn [map flat_map concat]. rewrite token_bytes_image by exact F1. f_equal. apply IH; exact F2.
Qed.

Lemma lossy_encode s : text s -> from_utf8_lossy (encode_utf8 s) = s.
Proof. intros T. apply lossy_of, from_utf8_encode. exact T. Qed.

(** ** Pre-tokenisation *)
Definition image_char (c : char) : str := if is_scalar c then map byte_char (encode_char c) else [c].
Lemma image_char_nonempty c : image_char c <> [].
Proof. unfold image_char. destruct (is_scalar c); [|discriminate]. unfold encode_char. repeat destruct (N.ltb _ _); discriminate. Qed.
Lemma byte_image_flat s : text s -> flat_map image_char s = byte_image s.
Proof.
  unfold byte_image, encode_utf8. induction 1 as [|c s H _ IH]; [reflexivity|]. cbn [flat_map]. rewrite map_app, IH. unfold image_char. rewrite H. reflexivity.
Qed.

Lemma byte_level_char_ok {E} c : is_scalar c = true -> @byte_level_char E c = Ok (first_replaces (image_char c)).
Proof.
  intros H. unfold byte_level_char, image_char. rewrite H. apply encode_char_bytes in H.
  assert (M : @map_res E N N (fun b => of_option (bytes_char b)) (encode_char c) = Ok (map byte_char (encode_char c))).
  { clear -H. induction H as [|b l H _ IH]; [reflexivity|]. cbn [map_res map]. destruct (alphabet b H) as [-> _]. cbn [of_option bind]. rewrite IH. reflexivity. }
  rewrite M. reflexivity.
Qed.

Lemma byte_level_norm_case ns : text (n_normalized ns) -> byte_level_norm ns = n_case ns image_char.
Proof.
  intros T. unfold byte_level_norm, n_case.
  assert (M : @map_res unit N _ byte_level_char (n_normalized ns) = Ok (map (fun c => first_replaces (image_char c)) (n_normalized ns))).
  { clear -T. induction T as [|c s H _ IH]; [reflexivity|]. cbn [map_res map]. rewrite byte_level_char_ok by exact H. cbn [bind]. rewrite IH. reflexivity. }
  rewrite M. cbn [bind]. rewrite flat_map_concat_map. reflexivity.
Qed.

Lemma ctext_flat (f : char -> str) cal : ctext (flat_map (fun ca => map (fun c => (c, snd ca)) (f (fst ca))) cal) = flat_map f (ctext cal).
Proof.
  unfold ctext. induction cal as [|[c a] cal IH]; [reflexivity|]. cbn [flat_map map fst snd]. rewrite map_app, IH, map_map. cbn [fst]. rewrite map_id. reflexivity.
Qed.

(** An [nstring] whose alignments are all non-empty ranges. *)
Lemma solid_head ns : solid ns -> head_wide ns.
Proof. unfold solid, head_wide. destruct (n_alignments ns); [auto|]. intros H. inversion H; assumption. Qed.

Lemma byte_level_norm_ok ns : aligned ns -> solid ns -> text (n_normalized ns) ->
  exists ns', byte_level_norm ns = Ok ns' /\ same_source ns ns' /\ n_normalized ns' = byte_image (n_normalized ns).
Proof.
  intros A S T. rewrite byte_level_norm_case by exact T.
  destruct (C61_case ns image_char A (solid_head ns S) image_char_nonempty) as (ns' & cal & E & Q & [H1 _] & [H2 _]).
  exists ns'. split; [exact E|]. split; [exact Q|]. rewrite H2, ctext_flat, <- H1. apply byte_image_flat. exact T.
Qed.

(** The parts of a solid text are solid. *)
Lemma cbytes_Forall (P : nat * nat -> Prop) cal : Forall (fun ca : char * (nat * nat) => P (snd ca)) cal <-> Forall P (cbytes cal).
Proof.
  unfold cbytes. induction cal as [|[c a] cal IH]; [split; constructor|]. cbn [flat_map fst snd]. rewrite Forall_app, <- IH. split.
  - intros H. inversion H; subst. split; [|assumption]. apply Forall_forall. intros x Hx. apply repeat_spec in Hx. subst. assumption.
  - intros [H1 H2]. constructor; [|exact H2]. cbn [snd]. pose proof (len_utf8_pos c). destruct (len_utf8 c); [lia|]. inversion H1; assumption.
Qed.
Lemma solid_shows ns cal : shows ns cal -> (solid ns <-> Forall (fun ca : char * (nat * nat) => fst (snd ca) < snd (snd ca)) cal).
Proof. intros [_ E]. unfold solid. rewrite E. symmetry. apply (cbytes_Forall (fun a => fst a < snd a)). Qed.

Lemma part_solid ns seg ns' : wf_seg seg -> Forall (fun ca : char * (nat * nat) => fst (snd ca) < snd (snd ca)) seg -> part_of ns seg ns' -> solid ns'.
Proof.
  intros W F P. destruct seg as [|[c a] r].
  - destruct P as (_ & _ & E). unfold solid. rewrite E. constructor.
  - pose proof (wf_seg_from c a r W) as M. unfold from_pos in M. rewrite Forall_forall in M.
    destruct P as (u & v & _ & Ha & _ & _ & S). apply (solid_shows ns' _ S). apply Forall_forall. intros x Hx. apply in_map_iff in Hx.
    destruct Hx as (ca & <- & Hx). cbn [fst snd]. rewrite Forall_forall in F. specialize (F ca Hx). specialize (M ca Hx). lia.
Qed.

Lemma wf_seg_concat segs : wf_seg (concat segs) -> Forall wf_seg segs.
Proof. induction segs as [|s segs IH]; intros H; [constructor|]. cbn [concat] in H. apply wf_seg_app in H. destruct H. constructor; auto. Qed.

(** Splitting without removal keeps the pieces aligned and solid. *)
Lemma isolated_pieces ns ms segs : aligned ns -> solid ns -> covers_text ms segs (n_normalized ns) ->
  exists pieces, n_split ns ms Isolated = Ok pieces /\ map n_normalized pieces = map fst segs /\ Forall (fun p => aligned p /\ solid p) pieces.
Proof.
  intros A S C. destruct (C15_split ns ms segs Isolated A C) as (pieces & csegs & E & Sh & M & F). exists pieces. split; [exact E|].
  cbn [spec_split] in F. unfold spec_isolated in F. split.
  - rewrite <- M, map_map. cbn [fst]. clear -F. revert pieces F. induction csegs as [|[t f] cs IH]; intros pieces F; inversion F as [|? p ? ps [P _] F']; subst; [reflexivity|].
    cbn [map fst]. f_equal; [|apply IH; exact F']. destruct t as [|[c a] r]; [destruct P as (-> & _); reflexivity|].
    destruct P as (u & v & _ & _ & _ & _ & [P _]). cbn [fst] in P. rewrite P. unfold ctext. rewrite map_map. reflexivity.
  - assert (W : wf_seg (concat (map fst csegs))).
    { destruct (aligned_cal _ A) as (cal & S' & W). rewrite (shows_inj _ _ _ Sh S'). eapply wf_cal_seg; eauto. }
    apply (solid_shows _ _ Sh) in S. apply wf_seg_concat in W. clear -F W S. revert F. generalize pieces. induction (map fst csegs) as [|t ts IH]; intros ps F; inversion F as [|? p ? ps' [P1 P2] F']; subst; constructor.
    + inversion W; subst. cbn [concat] in S. apply Forall_app in S. destruct S as [S1 _]. split; [exact P2|]. eapply part_solid; eauto.
    + inversion W; subst. cbn [concat] in S. apply Forall_app in S. destruct S as [_ S2]. apply IH; assumption.
Qed.

Lemma aligned_step ns op ns' : aligned ns -> in_contract ns op -> apply_norm_op ns op = Ok ns' -> aligned ns'.
Proof.
  intros A C H. apply aligned_show in A. destruct A as (orig & cal & sh & -> & W).
  destruct (op_wf orig cal sh op ns' W C H) as (o & c & k & -> & W'). apply show_aligned; exact W'.
Qed.

Lemma prepend_ok ns c : aligned ns -> n_normalized ns <> [] ->
  exists ns', n_prepend ns [c] = Ok ns' /\ same_source ns ns' /\ n_normalized ns' = c :: n_normalized ns /\ aligned ns' /\ (solid ns -> solid ns').
Proof.
  intros A N. destruct (C61_prepend ns [c] A ltac:(discriminate) N) as (ns' & c0 & a & r & E & Q & S & S'). exists ns'. split; [exact E|]. split; [exact Q|].
  cbn [map app] in S'. split; [|split].
  - destruct S as [S _], S' as [S' _]. rewrite S', S. reflexivity.
  - apply (aligned_step ns (MPrepend [c]) ns' A I E).
  - intros H. apply (solid_shows _ _ S) in H. apply (solid_shows _ _ S'). inversion H; subst. constructor; assumption.
Qed.

(** ** Whole pre-tokenised strings *)
Lemma split_loop_ok {E} (f : nat -> nstring -> res E (list split)) (Q : split -> list split -> Prop) : forall l i,
  (forall sp, In sp l -> match sp_tokens sp with
                         | Some _ => Q sp [sp]
                         | None => forall i, exists new, f i (sp_norm sp) = Ok new /\ Q sp (keep_nonempty new)
                         end) ->
  exists groups, split_loop f i l = Ok (concat groups) /\ Forall2 Q l groups.
Proof.
  induction l as [|sp l IH]; intros i H; [exists []; split; [reflexivity|constructor]|].
  destruct (IH (i + 1)) as (groups & E1 & F); [intros sp' I; apply H; right; exact I|].
  pose proof (H sp (or_introl eq_refl)) as H1. cbn [split_loop]. destruct (sp_tokens sp) as [ts|].
  - exists ([sp] :: groups). rewrite E1. split; [reflexivity|constructor; assumption].
  - destruct (H1 i) as (new & E2 & HQ). exists (keep_nonempty new :: groups). rewrite E2. cbn [bind]. rewrite E1. split; [reflexivity|constructor; assumption].
Qed.

Lemma normalize_groups {E} (f : nstring -> res E nstring) (Q R : split -> list split -> Prop) :
  (forall sp g, Q sp g -> exists g', map_res (normalize_one f) g = Ok g' /\ R sp g') ->
  forall l groups, Forall2 Q l groups ->
  exists groups', map_res (normalize_one f) (concat groups) = Ok (concat groups') /\ Forall2 R l groups'.
Proof.
  intros H l groups F. induction F as [|sp g l groups HQ _ (gs & E1 & F')]; [exists []; split; [reflexivity|constructor]|].
  destruct (H sp g HQ) as (g' & E2 & HR). exists (g' :: gs). split; [|constructor; assumption]. cbn [concat].
  clear -E1 E2. revert g' E2. induction g as [|a g IH]; intros g' E2; cbn [map_res app] in *.
  - injection E2 as <-. exact E1.
  - apply bind_ok in E2. destruct E2 as (b & Hb & E2). rewrite Hb. cbn [bind]. apply bind_ok in E2. destruct E2 as (bs & Hbs & E2). injection E2 as <-.
    rewrite (IH bs Hbs). reflexivity.
Qed.

Lemma concat_keep_nonempty (l : list split) :
  concat (map (fun sp => n_normalized (sp_norm sp)) (keep_nonempty l)) = concat (map (fun sp => n_normalized (sp_norm sp)) l).
Proof.
  induction l as [|sp l IH]; [reflexivity|]. cbn [keep_nonempty filter map concat]. destruct (n_normalized (sp_norm sp)) eqn:E; cbn [is_nil negb map concat].
  - exact IH.
  - rewrite E. f_equal. exact IH.
Qed.
Lemma keep_nonempty_Forall (P : split -> Prop) l : Forall P l -> Forall P (keep_nonempty l).
Proof. intros F. apply Forall_forall. intros sp I. apply filter_In in I. rewrite Forall_forall in F. apply F, I. Qed.
Lemma keep_nonempty_nonempty l : Forall (fun sp => n_normalized (sp_norm sp) <> []) (keep_nonempty l).
Proof. apply Forall_forall. intros sp I. apply filter_In in I. destruct I as [_ I]. destruct (n_normalized (sp_norm sp)); [discriminate|discriminate]. Qed.

(** The untokenised part of a group after the splitting step. *)
Definition split_group (find : str -> list offsets_t) (use_regex aps : bool) (sp : split) (g : list split) : Prop :=
  match sp_tokens sp with
  | Some _ => g = [sp]
  | None => Forall (fun sp' => sp_tokens sp' = None /\ aligned (sp_norm sp') /\ solid (sp_norm sp')) g /\
            exists pieces, engine_pieces find use_regex (with_prefix_space aps (n_normalized (sp_norm sp))) pieces /\
              concat pieces = with_prefix_space aps (n_normalized (sp_norm sp)) /\
              map (fun sp' => n_normalized (sp_norm sp')) g = nonempty_parts pieces
  end.

Lemma keep_nonempty_texts pieces : map (fun sp => n_normalized (sp_norm sp)) (keep_nonempty (plain_splits pieces)) = nonempty_parts (map n_normalized pieces).
Proof.
  unfold keep_nonempty, plain_splits, nonempty_parts. induction pieces as [|p l IH]; [reflexivity|]. cbn [map filter sp_norm].
  destruct (n_normalized p) eqn:E; cbn [is_nil negb map]; [exact IH|]. cbn [sp_norm]. rewrite E. f_equal. exact IH.
Qed.
Lemma keep_plain_Forall (P : nstring -> Prop) pieces : Forall P pieces -> Forall (fun sp => sp_tokens sp = None /\ P (sp_norm sp)) (keep_nonempty (plain_splits pieces)).
Proof.
  intros F. apply Forall_forall. intros sp I. apply filter_In in I. destruct I as [I _]. unfold plain_splits in I. apply in_map_iff in I. destruct I as (p & <- & I).
  cbn [sp_tokens sp_norm]. rewrite Forall_forall in F. auto.
Qed.

Lemma text_app a b : text (a ++ b) <-> text a /\ text b.
Proof. apply Forall_app. Qed.
Lemma text_concat l : text (concat l) -> Forall text l.
Proof. induction l as [|a l IH]; intros H; [constructor|]. cbn [concat] in H. apply text_app in H. destruct H. constructor; auto. Qed.
Lemma with_prefix_text aps s : text s -> text (with_prefix_space aps s).
Proof. intros T. unfold with_prefix_space. destruct aps; [|exact T]. destruct s as [|c s]; [exact T|]. destruct (N.eqb c 32); [exact T|]. constructor; [reflexivity|exact T]. Qed.

Lemma byte_level_one_ok find aps use_regex i ns :
  (use_regex = true -> forall s, engine_matches s 0 (find s)) -> aligned ns -> solid ns ->
  exists new, byte_level_one find aps use_regex i ns = Ok new /\ split_group find use_regex aps (mkSplit ns None) (keep_nonempty new).
Proof.
  intros HF A S. unfold byte_level_one.
  assert (P : exists ns1, (if aps && negb (starts_with_char 32%N (n_normalized ns)) then n_prepend ns [32%N] else Ok ns) = Ok ns1 /\
     aligned ns1 /\ solid ns1 /\ n_normalized ns1 = with_prefix_space aps (n_normalized ns)).
  { destruct aps; cbn [andb with_prefix_space]; [|exists ns; auto]. destruct (n_normalized ns) as [|c s] eqn:E.
    - cbn [starts_with_char negb]. exists ns. unfold n_prepend. rewrite E. auto.
    - cbn [starts_with_char]. destruct (N.eqb c 32) eqn:Ec; cbn [negb].
      + exists ns. rewrite E. auto.
      + destruct (prepend_ok ns 32%N A ltac:(rewrite E; discriminate)) as (ns1 & E1 & _ & T & A1 & S1). exists ns1.
        split; [exact E1|]. split; [exact A1|]. split; [auto|]. rewrite T, E. reflexivity. }
  destruct P as (ns1 & -> & A1 & S1 & T1). cbn [bind]. unfold split_group, engine_pieces. cbn [sp_tokens sp_norm]. rewrite <- T1.
  destruct use_regex.
  - destruct (C16_regex find (n_normalized ns1) (HF eq_refl _)) as (segs & C & _ & _).
    destruct (isolated_pieces ns1 _ segs A1 S1 C) as (pieces & -> & M & F). cbn [bind]. eexists. split; [reflexivity|]. split.
    + exact (keep_plain_Forall (fun ns => aligned ns /\ solid ns) pieces F).
    + exists (map fst segs). split; [eauto|]. split; [symmetry; apply C|]. rewrite keep_nonempty_texts, M. reflexivity.
  - cbn [bind]. eexists. split; [reflexivity|]. split.
    + apply (keep_plain_Forall (fun ns => aligned ns /\ solid ns)). constructor; [auto|constructor].
    + exists [n_normalized ns1]. split; [reflexivity|]. split; [apply app_nil_r|]. rewrite keep_nonempty_texts. reflexivity.
Qed.

Lemma text_nonempty_parts l : text (concat l) -> Forall text (nonempty_parts l).
Proof. intros T. apply text_concat in T. apply Forall_forall. intros t I. apply filter_In in I. rewrite Forall_forall in T. apply T, I. Qed.

Lemma image_group_ok find use_regex aps sp g : section_ok sp -> split_group find use_regex aps sp g ->
  exists g', map_res (normalize_one byte_level_norm) g = Ok g' /\ image_group find use_regex aps sp g'.
Proof.
  unfold section_ok, split_group, image_group. intros OK H. destruct (sp_tokens sp) as [ts|] eqn:Et.
  - subst g. exists [sp]. cbn [map_res]. unfold normalize_one. rewrite Et. split; reflexivity.
  - destruct (OK eq_refl) as (_ & _ & T). destruct H as [F (pieces & EP & C & M)]. apply (with_prefix_text aps) in T. rewrite <- C in T.
    apply text_nonempty_parts in T. rewrite <- M in T.
    assert (R : exists g', map_res (normalize_one byte_level_norm) g = Ok g' /\ Forall (fun sp' => sp_tokens sp' = None) g' /\
       map (fun sp' => n_normalized (sp_norm sp')) g' = map byte_image (map (fun sp' => n_normalized (sp_norm sp')) g)).
    { clear - F T. revert T. induction F as [|sp' g (H1 & H2 & H3) _ IH]; intros T.
      - exists []. split; [reflexivity|]. split; [constructor|reflexivity].
      - cbn [map] in T. inversion T as [|? ? T1 T2]; subst. destruct (IH T2) as (g' & E & F' & C').
        destruct (byte_level_norm_ok (sp_norm sp') H2 H3 T1) as (ns' & E1 & _ & N'). exists (mkSplit ns' None :: g'). split; [|split].
        + cbn [map_res]. unfold normalize_one at 1. rewrite H1, E1. cbn [bind]. rewrite E. reflexivity.
        + constructor; [reflexivity|exact F'].
        + cbn [map sp_norm]. rewrite N', C'. reflexivity. }
    destruct R as (g' & E & F' & C'). exists g'. split; [exact E|]. split; [exact F'|]. exists pieces. split; [exact EP|]. split; [exact C|]. rewrite C', M. reflexivity.
Qed.

Lemma byte_level_pre_ok find aps use_regex pt :
  (use_regex = true -> forall s, engine_matches s 0 (find s)) -> Forall section_ok (pt_splits pt) ->
  exists pt' groups, byte_level_pre_tokenize find aps use_regex pt = Ok pt' /\ pt_original pt' = pt_original pt /\
    pt_splits pt' = concat groups /\ Forall2 (image_group find use_regex aps) (pt_splits pt) groups.
Proof.
  intros HF OK. unfold byte_level_pre_tokenize, pt_split, pt_normalize.
  destruct (split_loop_ok (byte_level_one find aps use_regex) (fun sp g => section_ok sp /\ split_group find use_regex aps sp g) (pt_splits pt) 0) as (groups & E & F).
  { intros sp I. rewrite Forall_forall in OK. specialize (OK sp I). destruct (sp_tokens sp) as [ts|] eqn:Et.
    - split; [exact OK|]. unfold split_group. rewrite Et. reflexivity.
    - intros i. destruct (OK Et) as (A & S & _). destruct (byte_level_one_ok find aps use_regex i (sp_norm sp) HF A S) as (new & E & G).
      exists new. split; [exact E|]. split; [exact OK|]. unfold split_group in *. rewrite Et. exact G. }
  rewrite E. cbn [bind pt_splits pt_original].
  destruct (normalize_groups byte_level_norm _ (image_group find use_regex aps) (fun sp g H => image_group_ok find use_regex aps sp g (proj1 H) (proj2 H)) _ _ F) as (groups' & E' & F').
  rewrite E'. cbn [bind]. eexists. exists groups'. split; [reflexivity|]. split; [reflexivity|]. split; [reflexivity|exact F'].
Qed.

Lemma concat_nonempty l : concat (nonempty_parts l) = concat l.
Proof. unfold nonempty_parts. induction l as [|t l IH]; [reflexivity|]. cbn [filter concat]. destruct t; cbn [is_nil negb concat app]; [exact IH|]. f_equal. f_equal. exact IH. Qed.
Lemma concat_images l : concat (map byte_image l) = byte_image (concat l).
Proof. unfold byte_image. induction l as [|t l IH]; [reflexivity|]. cbn [map concat]. rewrite IH, encode_utf8_app, map_app. reflexivity. Qed.
Lemma image_group_text find use_regex aps sp g : sp_tokens sp = None -> image_group find use_regex aps sp g ->
  concat (map (fun sp' => n_normalized (sp_norm sp')) g) = byte_image (with_prefix_space aps (n_normalized (sp_norm sp))).
Proof.
  unfold image_group. intros -> (_ & pieces & _ & C & ->). rewrite concat_images, concat_nonempty, C. reflexivity.
Qed.
