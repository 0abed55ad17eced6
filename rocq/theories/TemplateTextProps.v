(** C76: templates written as text. *)
From Verif Require Import Base AMap EncodingModel EncodingSpec ProcessorsModel ProcessorsSpec ProcessorsProofs ProcessorsProps TemplateTextModel TemplateTextSpec TemplateTextProofs.

(** A text is read as a piece exactly when it is one of the forms of a piece, and
    as that piece; anything else is an error. *)
Theorem C76_pieces : forall s, (forall p, piece_from s = Ok p <-> piece_text s p) /\ (piece_from s = Err tt \/ exists p, piece_from s = Ok p).
Proof. intros s. split; [intros p; apply piece_spec|]. pose proof (piece_calm s). destruct (piece_from s) as [p|[]|]; [eauto|auto|congruence]. Qed.

(** A template: pieces with one space between each two.  A list of texts is read
    in the same way, but there a text may contain spaces. *)
Theorem C76_templates : forall s,
  (forall ps, template_from_text s = Ok ps <-> exists l, l <> [] /\ s = spaced l /\ Forall (fun t => ~ In 32%N t) l /\ Forall2 piece_text l ps) /\
  (template_from_text s = Err tt \/ exists ps, template_from_text s = Ok ps).
Proof.
  intros s. unfold template_from_text. split.
  - intros ps. rewrite pieces_spec. split.
    + intros F. exists (split_on 32 [] s). split; [apply split_ne|]. split; [rewrite spaced_joined, split_joined; reflexivity|]. split; [apply split_clean; intros []|exact F].
    + intros (l & NE & -> & NS & F). rewrite spaced_joined, split_of_joined by assumption. exact F.
  - pose proof (pieces_calm (split_on 32 [] s)). destruct (template_from_pieces (split_on 32 [] s)) as [ps|[]|]; [eauto|auto|congruence].
Qed.

Theorem C76_lists : forall l, (forall ps, template_from_pieces l = Ok ps <-> Forall2 piece_text l ps) /\
  (l <> [] -> Forall (fun t => ~ In 32%N t) l -> template_from_pieces l = template_from_text (spaced l)).
Proof. intros l. split; [intros ps; apply pieces_spec|]. intros NE NS. unfold template_from_text. rewrite spaced_joined, split_of_joined by assumption. reflexivity. Qed.

(** Every template whose names can be written is read back from its text, and
    so no two are written alike. *)
Theorem C76_written : forall ps, ps <> [] -> Forall writable ps -> template_from_text (spaced (map write_piece ps)) = Ok ps.
Proof.
  intros ps NE F. apply C76_templates. exists (map write_piece ps). split; [destruct ps; [congruence|discriminate]|]. split; [reflexivity|]. split.
  - apply Forall_map. eapply Forall_impl; [|exact F]. intros p. apply piece_unspaced.
  - clear NE. induction F as [|p ps H F IH]; [constructor|]. constructor; [apply piece_written; exact H|exact IH].
Qed.

Lemma number_small t n : number t n -> (n < 2 ^ 32)%N.
Proof. intros (ds & _ & _ & _ & _ & L). exact L. Qed.
Lemma names_small s p : names s p -> match p with PSeq _ n => (n < 2 ^ 32)%N | PSpecial _ n => n = 0%N end.
Proof. intros H. inversion H; subst; try reflexivity. eapply number_small; eauto. Qed.

(** What can be written at all: a special token whose name has a colon or begins
    with [$] cannot, nor, in a text, one whose name has a space. *)
Theorem C76_expressible : forall p,
  ((exists s, piece_from s = Ok p) <-> match p with PSeq _ n => (n < 2 ^ 32)%N | PSpecial name n => (n < 2 ^ 32)%N /\ ~ In 58%N name /\ hd_error name <> Some 36%N end) /\
  ((exists s ps, template_from_text s = Ok ps /\ In p ps) <-> writable p).
Proof.
  assert (H : forall s p, piece_text s p -> match p with PSeq _ n => (n < 2 ^ 32)%N | PSpecial name n => (n < 2 ^ 32)%N /\ ~ In 58%N name /\ hd_error name <> Some 36%N /\ exists a b, s = a ++ name ++ b end).
  { intros s p [[NC N1]|(id & t & q & n & -> & C1 & C2 & Hq & Hn & ->)].
    - pose proof (names_small _ _ N1). destruct p as [sq n|name n]; [assumption|]. subst n. inversion N1; subst. repeat split; auto. exists [], []. rewrite app_nil_r. reflexivity.
    - apply number_small in Hn. destruct q as [sq k|name k]; cbn [retyped]; [assumption|]. inversion Hq; subst. repeat split; auto. exists [], ([58%N] ++ t). reflexivity. }
  intros p. split; split.
  - intros (s & E). apply piece_spec, H in E. destruct p; [exact E|]. destruct E as (A1 & A2 & A3 & _). auto.
  - intros W. exists (write_piece p). apply piece_spec. destruct p as [sq n|name n]; [apply piece_written; exact W|]. destruct W as (A1 & A2 & A3). right. exists name, (write_number n), (PSpecial name 0), n. split; [reflexivity|]. split; [exact A2|]. split; [apply write_lacks; unfold digit; lia|]. split; [constructor; exact A3|]. split; [apply write_is; exact A1|reflexivity].
  - intros (s & ps & E & I). apply C76_templates in E. destruct E as (l & _ & _ & NS & F). assert (X : exists t, In t l /\ piece_text t p). { clear NS. induction F as [|t q l ps Ht F IH]; [destruct I|]. destruct I as [->|I]; [exists t; split; [left; reflexivity|exact Ht]|]. destruct (IH I) as (t' & I' & H'). exists t'. split; [right; exact I'|exact H']. }
    destruct X as (t & It & Ht). rewrite Forall_forall in NS. apply NS in It. apply H in Ht. destruct p as [sq n|name n]; [exact Ht|]. destruct Ht as (A1 & A2 & A3 & a & b & ->). cbn. repeat split; auto. intros I2. apply It. apply in_or_app. right. apply in_or_app. left. exact I2.
  - intros W. exists (spaced (map write_piece [p])), [p]. split; [apply C76_written; [discriminate|repeat constructor; exact W]|left; reflexivity].
Qed.

(** ** Building *)
Lemma tokens_get l : forall acc name, get_special name (fold_left (fun m e => aset str_eqb (fst e) (snd e) m) l acc) = match find (fun e => str_eqb (fst e) name) (rev l) with Some e => Some (snd e) | None => get_special name acc end.
Proof.
  induction l as [|[k v] l IH] using rev_ind; intros acc name; [reflexivity|]. rewrite fold_left_app, rev_app_distr. cbn [fold_left rev app find fst snd]. unfold get_special in *. rewrite (aget_aset str_eqb str_eqb_eq). destruct (str_eqb name k) eqn:E.
  - apply str_eqb_eq in E. subst k. rewrite str_eqb_refl. reflexivity.
  - assert (E' : str_eqb k name = false). { destruct (str_eqb k name) eqn:Q; [|reflexivity]. apply str_eqb_eq in Q. subst k. rewrite str_eqb_refl in E. discriminate. } rewrite E'. apply IH.
Qed.
(** Of several special tokens with one name, the last one counts. *)
Theorem C76_tokens : forall l name sp, get_special name (tokens_from l) = Some sp <->
  exists before after, l = before ++ (name, sp) :: after /\ ~ In name (map fst after).
Proof.
  assert (X : forall l name acc sp, get_special name (fold_left (fun m e => aset str_eqb (fst e) (snd e) m) l acc) = Some sp <->
    (exists before after, l = before ++ (name, sp) :: after /\ ~ In name (map fst after)) \/ (~ In name (map fst l) /\ get_special name acc = Some sp)).
  { induction l as [|[k v] l IH]; intros name acc sp; cbn [fold_left map fst snd].
    - split; [auto|]. intros [(b & a & E & _)|[_ H]]; [destruct b; discriminate|exact H].
    - rewrite IH. unfold get_special. rewrite (aget_aset str_eqb str_eqb_eq). split.
      + intros [(b & a & -> & N)|[N H]]; [left; exists ((k, v) :: b), a; auto|]. destruct (str_eqb name k) eqn:E.
        * apply str_eqb_eq in E. subst k. injection H as <-. left. exists [], l. auto.
        * right. split; [|exact H]. intros [->|I]; [rewrite str_eqb_refl in E; discriminate|auto].
      + intros [(b & a & E & N)|[N H]].
        * destruct b as [|[k' v'] b]; cbn [app] in E.
          -- injection E as -> -> ->. right. split; [exact N|]. rewrite str_eqb_refl. reflexivity.
          -- injection E as -> -> ->. left. eauto.
        * right. split; [intros I; apply N; right; exact I|]. destruct (str_eqb name k) eqn:E; [|exact H]. apply str_eqb_eq in E. subst k. exfalso. apply N. left. reflexivity. }
  intros l name sp. unfold tokens_from. rewrite X. split; [intros [H|[_ H]]; [exact H|discriminate]|auto].
Qed.
Example C76_tokens_example : get_special [97%N] (tokens_from [([97%N], mkSpecial [1%N] [[97%N]]); ([98%N], mkSpecial [2%N] [[98%N]]); ([97%N], mkSpecial [3%N] [[97%N]])]) = Some (mkSpecial [3%N] [[97%N]]).
Proof. reflexivity. Qed.
Lemma tokens_known l name : (exists sp, get_special name (tokens_from l) = Some sp) <-> In name (map fst l).
Proof.
  unfold tokens_from. rewrite tokens_get. destruct (find _ (rev l)) as [[k v]|] eqn:E.
  - apply find_some in E. destruct E as [I E]. cbn in E. apply str_eqb_eq in E. subst k. apply in_rev in I. split; [intros _; apply (in_map fst) in I; exact I|eauto].
  - cbn. split; [intros (sp & X); discriminate|]. intros I. exfalso. apply in_map_iff in I. destruct I as ([k v] & X & I). cbn in X. subst k. apply in_rev in I. apply (find_none _ _ E) in I. cbn in I. rewrite str_eqb_refl in I. discriminate.
Qed.
Lemma build_ok sg pr m : (exists t, build (mkBuilder (Some sg) (Some pr) (Some m)) = Ok t) <->
  (exists ty, In (PSeq SeqA ty) pr) /\ (exists ty, In (PSeq SeqB ty) pr) /\ forall name ty, In (PSpecial name ty) (sg ++ pr) -> exists sp, get_special name m = Some sp.
Proof.
  assert (S : forall s l, existsb (is_seq s) l = true <-> exists ty, In (PSeq s ty) l).
  { intros s l. rewrite existsb_exists. split.
    - intros ([q n|] & I & E); destruct s; cbn in E; try discriminate; destruct q; try discriminate; eauto.
    - intros (ty & I). exists (PSeq s ty). split; [exact I|destruct s; reflexivity]. }
  split.
  - intros (t & E). destruct (C45_build _ _ E) as (K1 & K2 & K3 & _). unfold build in E. destruct (validate _); try discriminate. cbn [bind tb_single tb_pair tb_special] in E. injection E as <-. cbn [tm_single tm_pair tm_special] in *. auto.
  - intros (HA & HB & HS). unfold build, validate. cbn [tb_single tb_pair tb_special]. apply S in HA, HB. rewrite HA, HB. cbn [andb negb]. assert (X : forallb (fun p => match p with PSeq _ _ => true | PSpecial name _ => match get_special name m with Some _ => true | None => false end end) (sg ++ pr) = true).
    { apply forallb_forall. intros [q n|name ty] I; [reflexivity|]. destruct (HS name ty I) as (sp & ->). reflexivity. }
    rewrite X. cbn [bind]. eauto.
Qed.

(** A processor is built from two texts exactly when both can be read, the second
    one has both sequences and all names are given; it is the processor with
    these templates. *)
Theorem C76_build : forall single pair specials t, build_from_texts (Some single) (Some pair) specials = Ok t <->
  exists sg pr, template_from_text single = Ok sg /\ template_from_text pair = Ok pr /\ (exists ty, In (PSeq SeqA ty) pr) /\ (exists ty, In (PSeq SeqB ty) pr) /\
    (forall name ty, In (PSpecial name ty) (sg ++ pr) -> In name (map fst specials)) /\ t = deserialize sg pr (tokens_from specials).
Proof.
  intros single pair specials t. unfold build_from_texts. split.
  - destruct (template_from_text single) as [sg| |]; try discriminate. cbn [bind]. destruct (template_from_text pair) as [pr| |]; try discriminate. cbn [bind]. intros E. exists sg, pr. split; [reflexivity|]. split; [reflexivity|].
    destruct (proj1 (build_ok sg pr (tokens_from specials)) (ex_intro _ t E)) as (HA & HB & HS). split; [exact HA|]. split; [exact HB|]. split; [intros name ty I; apply tokens_known; eapply HS; exact I|].
    destruct (C45_build _ _ E) as (_ & _ & _ & _ & _ & D). rewrite <- D. unfold build in E. destruct (validate _); try discriminate. cbn [bind tb_single tb_pair tb_special] in E. injection E as <-. reflexivity.
  - intros (sg & pr & -> & -> & HA & HB & HS & ->). cbn [bind]. destruct (proj2 (build_ok sg pr (tokens_from specials))) as (t & E).
    { split; [exact HA|]. split; [exact HB|]. intros name ty I. apply tokens_known. eapply HS. exact I. }
    rewrite E. f_equal. destruct (C45_build _ _ E) as (_ & _ & _ & _ & _ & D). rewrite <- D. unfold build in E. destruct (validate _); try discriminate. cbn [bind tb_single tb_pair tb_special] in E. injection E as <-. reflexivity.
Qed.
(** Without texts the templates are [$0] and [$A:0 $B:1]. *)
Theorem C76_default_texts : forall specials, exists t, build_from_texts None None specials = Ok t /\ build_from_texts (Some [36; 48]%N) (Some [36; 65; 58; 48; 32; 36; 66; 58; 49]%N) specials = Ok t /\ tm_single t = [PSeq SeqA 0] /\ tm_pair t = [PSeq SeqA 0; PSeq SeqB 1].
Proof. intros specials. eexists. split; [reflexivity|]. split; [reflexivity|]. split; reflexivity. Qed.

(** ** The documented templates *)
Definition dollar_a : str := [36; 65]%N.
Definition dollar_b : str := [36; 66]%N.
Definition one_more (s : str) : str := s ++ [58; 49]%N.

Lemma name_text name : hd_error name <> Some 36%N -> ~ In 58%N name -> piece_text name (PSpecial name 0).
Proof. intros H1 H2. left. split; [exact H2|constructor; exact H1]. Qed.
Lemma number_one : number [49%N] 1.
Proof. exists [49%N]. split; [left; reflexivity|]. split; [discriminate|]. split; [repeat constructor; discriminate|]. split; reflexivity. Qed.
Lemma name_one name : hd_error name <> Some 36%N -> ~ In 58%N name -> piece_text (one_more name) (PSpecial name 1).
Proof. intros H1 H2. right. exists name, [49%N], (PSpecial name 0), 1%N. split; [reflexivity|]. split; [exact H2|]. split; [cbn; intuition discriminate|]. split; [constructor; exact H1|]. split; [exact number_one|reflexivity]. Qed.
Lemma a_text : piece_text dollar_a (PSeq SeqA 0).
Proof. left. split; [cbn; intuition discriminate|constructor; left; reflexivity]. Qed.
Lemma b_text : piece_text dollar_b (PSeq SeqB 0).
Proof. left. split; [cbn; intuition discriminate|constructor; left; reflexivity]. Qed.
Lemma b_one : piece_text (one_more dollar_b) (PSeq SeqB 1).
Proof. right. exists dollar_b, [49%N], (PSeq SeqB 0), 1%N. split; [reflexivity|]. split; [cbn; intuition discriminate|]. split; [cbn; intuition discriminate|]. split; [constructor; left; reflexivity|]. split; [exact number_one|reflexivity]. Qed.

(** A name that can stand in a text. *)
Definition plain_name (s : str) : Prop := ~ In 58%N s /\ ~ In 32%N s /\ hd_error s <> Some 36%N.
Lemma one_unspaced s : ~ In 32%N s -> ~ In 32%N (one_more s).
Proof. intros H I. apply in_app_or in I. destruct I as [I|I]; [exact (H I)|cbn in I; intuition discriminate]. Qed.

(** [cls $A sep] and [cls $A sep $B:1 sep:1] make BERT's post-processor: for every
    input its tokens, types, masks, offsets and sequences. *)
Theorem C76_bert : forall cls sep, plain_name (fst cls) -> plain_name (fst sep) -> fst cls <> fst sep ->
  exists t, build_from_texts (Some (spaced [fst cls; dollar_a; fst sep])) (Some (spaced [fst cls; dollar_a; fst sep; one_more dollar_b; one_more (fst sep)])) [special_single cls; special_single sep] = Ok t /\
    (forall pair, added_tokens (PTemplate t) pair = added_tokens (PBert sep cls) pair) /\
    forall is_ws a b add, fresh 0 a -> opt_fresh b -> exists out out', process is_ws (PTemplate t) a b add = Ok out /\ process is_ws (PBert sep cls) a b add = Ok out' /\
      rows out = rows out' /\ forall i, token_to_sequence out i = token_to_sequence out' i.
Proof.
  intros cls sep (C1 & C2 & C3) (S1 & S2 & S3) NE. destruct cls as [cls ci], sep as [sep si]. cbn [fst] in *.
  set (m := tokens_from [special_single (cls, ci); special_single (sep, si)]).
  assert (M : m = [(cls, mkSpecial [ci] [cls]); (sep, mkSpecial [si] [sep])]). { unfold m, tokens_from, special_single. cbn. destruct (str_eqb sep cls) eqn:Q; [apply str_eqb_eq in Q; congruence|reflexivity]. }
  assert (Gc : get_special cls m = Some (mkSpecial [ci] [cls])) by (rewrite M; unfold get_special; cbn; rewrite str_eqb_refl; reflexivity).
  assert (Gs : get_special sep m = Some (mkSpecial [si] [sep])). { rewrite M. unfold get_special. cbn. destruct (str_eqb sep cls) eqn:Q; [apply str_eqb_eq in Q; congruence|]. rewrite str_eqb_refl. reflexivity. }
  set (sg := [PSpecial cls 0; PSeq SeqA 0; PSpecial sep 0]). set (pr := [PSpecial cls 0; PSeq SeqA 0; PSpecial sep 0; PSeq SeqB 1; PSpecial sep 1]).
  assert (Da : ~ In 32%N dollar_a) by (cbn; intuition discriminate). assert (Db : ~ In 32%N dollar_b) by (cbn; intuition discriminate).
  assert (E1 : template_from_text (spaced [cls; dollar_a; sep]) = Ok sg).
  { apply C76_templates. exists [cls; dollar_a; sep]. split; [discriminate|]. split; [reflexivity|]. split; [repeat constructor; assumption|]. repeat apply Forall2_cons; [apply name_text; assumption|apply a_text|apply name_text; assumption|apply Forall2_nil]. }
  assert (E2 : template_from_text (spaced [cls; dollar_a; sep; one_more dollar_b; one_more sep]) = Ok pr).
  { apply C76_templates. exists [cls; dollar_a; sep; one_more dollar_b; one_more sep]. split; [discriminate|]. split; [reflexivity|]. split; [repeat constructor; try apply one_unspaced; assumption|]. repeat apply Forall2_cons; [apply name_text; assumption|apply a_text|apply name_text; assumption|apply b_one|apply name_one; assumption|apply Forall2_nil]. }
  exists (deserialize sg pr m).
  assert (B : build_from_texts (Some (spaced [cls; dollar_a; sep])) (Some (spaced [cls; dollar_a; sep; one_more dollar_b; one_more sep])) [special_single (cls, ci); special_single (sep, si)] = Ok (deserialize sg pr m)).
  { apply C76_build. exists sg, pr. split; [exact E1|]. split; [exact E2|]. split; [exists 0%N; cbn; auto|]. split; [exists 1%N; cbn; auto 6|]. split; [|reflexivity]. intros name ty I. cbn in I. cbn. repeat (destruct I as [I|I]; [try discriminate; injection I as <- _; auto|]). destruct I. }
  split; [exact B|]. split.
  { intros [|]; cbn [added_tokens deserialize tm_added_pair tm_added_single]; unfold count_added, sg, pr; cbn [map]; rewrite ?Gc, ?Gs; reflexivity. }
  intros is_ws a b add Fa Fb.
  assert (BB : exists bld, build bld = Ok (deserialize sg pr m)). { unfold build_from_texts in B. rewrite E1, E2 in B. cbn [bind] in B. eauto. }
  destruct BB as (bld & BB).
  assert (SO : special_ok m). { rewrite M. intros name sp [X|[X|[]]]; injection X as <- <-; reflexivity. }
  assert (U : uses_once (if is_some b then pr else sg) (is_some b)) by (destruct b; cbn; auto).
  destruct add.
  - destruct (C46_template_usual is_ws bld (deserialize sg pr m) a b (bert_layout (sep, si) (cls, ci) (is_some b)) BB SO Fa Fb U) as (out & P & Sh & _).
    + cbn [deserialize tm_special tm_pair tm_single]. destruct b; cbn [is_some]; unfold sg, pr; cbn [template_layout]; rewrite Gc, Gs; reflexivity.
    + intros s ty I. destruct b; cbn in I; repeat (destruct I as [I|I]; [try discriminate; injection I as <- <-; reflexivity|]); destruct I.
    + destruct (C46_bert is_ws (sep, si) (cls, ci) a b Fa Fb) as (out' & P' & Sh' & _). exists out, out'. split; [exact P|]. split; [exact P'|]. destruct Sh as [R1 R2], Sh' as [R1' R2']. split; [congruence|]. intros i. rewrite R2, R2'. reflexivity.
  - destruct (C46_template is_ws bld (deserialize sg pr m) a b false (bare_layout (is_some b)) BB SO Fa Fb U) as (out & P & Sh & _).
    + destruct b; reflexivity.
    + destruct (C46_bert_bare is_ws (sep, si) (cls, ci) a b Fa Fb) as (out' & P' & Sh' & _). exists out, out'. split; [exact P|]. split; [exact P'|]. destruct Sh as [R1 R2], Sh' as [R1' R2']. split; [congruence|]. intros i. rewrite R2, R2'. reflexivity.
Qed.

(** [cls $A sep] and [cls $A sep sep $B sep] make RoBERTa's, without trimming. *)
Theorem C76_roberta : forall cls sep, plain_name (fst cls) -> plain_name (fst sep) -> fst cls <> fst sep ->
  exists t, build_from_texts (Some (spaced [fst cls; dollar_a; fst sep])) (Some (spaced [fst cls; dollar_a; fst sep; fst sep; dollar_b; fst sep])) [special_single cls; special_single sep] = Ok t /\
    (forall pair, added_tokens (PTemplate t) pair = added_tokens (PRoberta sep cls false false) pair) /\
    forall is_ws aps a b, fresh 0 a -> opt_fresh b -> exists out out', process is_ws (PTemplate t) a b true = Ok out /\ process is_ws (PRoberta sep cls false aps) a b true = Ok out' /\
      rows out = rows out' /\ forall i, token_to_sequence out i = token_to_sequence out' i.
Proof.
  intros cls sep (C1 & C2 & C3) (S1 & S2 & S3) NE. destruct cls as [cls ci], sep as [sep si]. cbn [fst] in *.
  set (m := tokens_from [special_single (cls, ci); special_single (sep, si)]).
  assert (M : m = [(cls, mkSpecial [ci] [cls]); (sep, mkSpecial [si] [sep])]). { unfold m, tokens_from, special_single. cbn. destruct (str_eqb sep cls) eqn:Q; [apply str_eqb_eq in Q; congruence|reflexivity]. }
  assert (Gc : get_special cls m = Some (mkSpecial [ci] [cls])) by (rewrite M; unfold get_special; cbn; rewrite str_eqb_refl; reflexivity).
  assert (Gs : get_special sep m = Some (mkSpecial [si] [sep])). { rewrite M. unfold get_special. cbn. destruct (str_eqb sep cls) eqn:Q; [apply str_eqb_eq in Q; congruence|]. rewrite str_eqb_refl. reflexivity. }
  set (sg := [PSpecial cls 0; PSeq SeqA 0; PSpecial sep 0]). set (pr := [PSpecial cls 0; PSeq SeqA 0; PSpecial sep 0; PSpecial sep 0; PSeq SeqB 0; PSpecial sep 0]).
  assert (Da : ~ In 32%N dollar_a) by (cbn; intuition discriminate). assert (Db : ~ In 32%N dollar_b) by (cbn; intuition discriminate).
  assert (E1 : template_from_text (spaced [cls; dollar_a; sep]) = Ok sg).
  { apply C76_templates. exists [cls; dollar_a; sep]. split; [discriminate|]. split; [reflexivity|]. split; [repeat constructor; assumption|]. repeat apply Forall2_cons; [apply name_text; assumption|apply a_text|apply name_text; assumption|apply Forall2_nil]. }
  assert (E2 : template_from_text (spaced [cls; dollar_a; sep; sep; dollar_b; sep]) = Ok pr).
  { apply C76_templates. exists [cls; dollar_a; sep; sep; dollar_b; sep]. split; [discriminate|]. split; [reflexivity|]. split; [repeat constructor; assumption|]. repeat apply Forall2_cons; first [apply Forall2_nil|apply a_text|apply b_text|apply name_text; assumption]. }
  exists (deserialize sg pr m).
  assert (B : build_from_texts (Some (spaced [cls; dollar_a; sep])) (Some (spaced [cls; dollar_a; sep; sep; dollar_b; sep])) [special_single (cls, ci); special_single (sep, si)] = Ok (deserialize sg pr m)).
  { apply C76_build. exists sg, pr. split; [exact E1|]. split; [exact E2|]. split; [exists 0%N; cbn; auto|]. split; [exists 0%N; cbn; auto 7|]. split; [|reflexivity]. intros name ty I. cbn in I. cbn. repeat (destruct I as [I|I]; [try discriminate; injection I as <- _; auto|]). destruct I. }
  split; [exact B|]. split.
  { intros [|]; cbn [added_tokens deserialize tm_added_pair tm_added_single]; unfold count_added, sg, pr; cbn [map]; rewrite ?Gc, ?Gs; reflexivity. }
  intros is_ws aps a b Fa Fb.
  assert (BB : exists bld, build bld = Ok (deserialize sg pr m)). { unfold build_from_texts in B. rewrite E1, E2 in B. cbn [bind] in B. eauto. }
  destruct BB as (bld & BB).
  assert (SO : special_ok m). { rewrite M. intros name sp [X|[X|[]]]; injection X as <- <-; reflexivity. }
  assert (U : uses_once (if is_some b then pr else sg) (is_some b)) by (destruct b; cbn; auto).
  destruct (C46_template is_ws bld (deserialize sg pr m) a b true (roberta_layout (sep, si) (cls, ci) (is_some b)) BB SO Fa Fb U) as (out & P & Sh & _).
  - cbn [deserialize tm_special tm_pair tm_single]. destruct b; cbn [is_some]; unfold sg, pr; cbn [template_layout]; rewrite Gc, Gs; reflexivity.
  - destruct (C46_roberta is_ws (sep, si) (cls, ci) false aps a b Fa Fb) as (out' & P' & Sh' & _). exists out, out'. split; [exact P|]. split; [exact P'|]. change (both (seen is_ws false aps) a b) with (both rows a b) in Sh'. destruct Sh as [R1 R2], Sh' as [R1' R2']. split; [congruence|]. intros i. rewrite R2, R2'. reflexivity.
Qed.

(** ** Examples *)
(** [[CLS] $A [SEP] $B:1 [SEP]:+1] *)
Example C76_ex : template_from_text [91; 67; 76; 83; 93; 32; 36; 65; 32; 91; 83; 69; 80; 93; 32; 36; 66; 58; 49; 32; 91; 83; 69; 80; 93; 58; 43; 49]%N =
  Ok [PSpecial [91; 67; 76; 83; 93]%N 0; PSeq SeqA 0; PSpecial [91; 83; 69; 80; 93]%N 0; PSeq SeqB 1; PSpecial [91; 83; 69; 80; 93]%N 1] /\
  Forall writable [PSpecial [91; 67; 76; 83; 93]%N 0; PSeq SeqA 4294967295; PSeq SeqB 12] /\
  plain_name [91; 67; 76; 83; 93]%N /\ template_from_text [36; 52; 50; 57; 52; 57; 54; 55; 50; 57; 54]%N = Err tt.
Proof.
  split; [reflexivity|]. split; [|split; [|reflexivity]].
  - repeat constructor; try reflexivity; cbn; try discriminate; intuition discriminate.
  - repeat split; cbn; try discriminate; intuition discriminate.
Qed.

(** [TemplateProcessing::default()] loses the second text of a pair: [$1] is the
    first sequence with type id 1. *)
Theorem C76_default_refuted : exists t a b out, template_default = Ok t /\ fresh 0 a /\ opt_fresh (Some b) /\ rows b <> [] /\
  process (fun _ => false) (PTemplate t) a (Some b) true = Ok out /\ map r_token (rows out) = map r_token (rows a) /\
  (forall t', build_from_texts None None [] = Ok t' -> exists out', process (fun _ => false) (PTemplate t') a (Some b) true = Ok out' /\ map r_token (rows out') = map r_token (rows a) ++ map r_token (rows b)).
Proof.
  set (a := mkEnc [7%N] [0%N] [[97%N]] [Some 0%N] [(0, 1)] [0%N] [1%N] [] []). set (b := mkEnc [8%N] [1%N] [[98%N]] [Some 0%N] [(0, 1)] [0%N] [1%N] [] []).
  eexists _, a, b, _. split; [reflexivity|]. split; [|split; [|split; [|split; [reflexivity|split; [reflexivity|]]]]].
  - split; [|constructor]. split; [repeat split|]. split; [reflexivity|]. repeat constructor.
  - split; [|constructor]. split; [repeat split|]. split; [reflexivity|]. repeat constructor.
  - discriminate.
  - intros t' E. injection E as <-. eexists. split; reflexivity.
Qed.
(** A text with two spaces in a row asks for a special token with an empty name. *)
Theorem C76_spaces : forall single pair specials t, ~ In [] (map fst specials) ->
  (exists x y, single = x ++ [32; 32]%N ++ y) -> build_from_texts (Some single) (Some pair) specials <> Ok t.
Proof.
  intros single pair specials t NI (x & y & ->) E. apply C76_build in E. destruct E as (sg & pr & E & _ & _ & _ & HS & _). apply C76_templates in E. destruct E as (l & NE & EL & NS & F). rewrite spaced_joined in EL.
  assert (I : In [] l).
  { rewrite <- (split_of_joined 32 l NE NS), <- EL. clear. assert (G : forall cur, In [] (split_on 32 cur (x ++ [32; 32]%N ++ y))).
    { induction x as [|c x IH]; intros cur; cbn [app split_on]; [right; left; reflexivity|]. destruct (N.eqb c 32); [right; apply IH|apply IH]. }
    apply G. }
  assert (J : In (PSpecial [] 0) sg).
  { clear - F I. induction F as [|s p l ps H F IH]; [destruct I|]. destruct I as [->|I]; [|right; apply IH; exact I]. left. destruct H as [[_ H]|(id & t & q & n & X & _)]; [inversion H; reflexivity|destruct id; discriminate]. }
  apply NI. eapply (HS [] 0%N). apply in_or_app. left. exact J.
Qed.
