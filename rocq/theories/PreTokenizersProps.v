(** C53 and C65: what the pre-tokenizers do to a text. *)
From Coq Require Import ZArith.
From Verif Require Import Base ListFacts StrBytes Utf8 PatternModel PatternSpec PatternProofs EncodingModel NormModel NormSpec NormProofs NormProps
  DecodersModel DecodersSpec DecodersProofs2 DecodersProofs3 DecodersProps PreTokSpec PreTokProofs PreTokProps EndToEndSpec EndToEndProofs EndToEndProps PreTokenizersModel PreTokenizersSpec PreTokModel
  PreTokenizersProofs PreTokenizersProofs2 PreTokenizersProofs3.

(** ** C65 *)
(** Any pre-tokenizer, alone or in a sequence, on anything obtained from a text:
    it succeeds, what was tokenised is left alone, every other section becomes the
    pieces it promises, in order, and all of them still are places of the text. *)
Theorem C65_pieces : forall T p s pt,
  sane T -> usable p -> inside_history s pt -> Forall section_ok (pt_splits pt) ->
  exists pt' groups, pre_tokenize T p pt = Ok pt' /\
    pt_splits pt' = concat groups /\ Forall2 (piece_group T p) (pt_splits pt) groups /\
    inside_history s pt' /\ Forall section_ok (pt_splits pt').
Proof.
  intros T p s pt HT U I L. destruct (pre_pass T HT p U s pt I L) as (pt' & gs & E & I' & L' & C & F). exists pt', gs. auto.
Qed.

(** In particular on a fresh text. *)
Theorem C65_text : forall T p s,
  sane T -> usable p -> text s ->
  exists pt', pre_tokenize T p (pre_from s) = Ok pt' /\ pieces_of T p s (split_texts pt') /\
    Forall (fun sp => sp_tokens sp = None) (pt_splits pt') /\ inside_history s pt'.
Proof.
  intros T p s HT U TX. destruct (C65_pieces T p s (pre_from s) HT U) as (pt' & gs & E & C & F & I & _).
  - apply (in_start s (nfrom s)); [apply nfrom_aligned|reflexivity|reflexivity].
  - constructor; [|constructor]. intros _. split; [apply nfrom_aligned|]. split; [apply nfrom_solid|exact TX].
  - exists pt'. split; [exact E|]. cbn in F. inversion F as [|? ? ? ? G F']; subst. inversion F'; subst. cbn [concat] in C. rewrite app_nil_r in C.
    unfold split_texts. rewrite C. destruct G as [G1 G2]. split; [exact G2|]. split; [exact G1|exact I].
Qed.

(** Every token made from the pieces lies in the text: what C62 asks of a
    pre-tokenizer. *)
Lemma split_sound (f : nat -> nstring -> res unit (list split)) R : closure_ok f R ->
  (forall i ns new sp, f i ns = Ok new -> In sp new -> sp_tokens sp = None) -> sound_pre_tokenizer (pt_split f).
Proof.
  intros [_ C] N s pt pt' I H. split.
  - eapply in_split; [exact I|exact C|exact H].
  - intros sp Hin. unfold pt_split in H. apply bind_ok in H. destruct H as (l & H & E). injection E as <-. cbn [pt_splits] in Hin.
    destruct (split_loop_in _ _ _ _ _ H Hin) as [G|(j & ns & new & G1 & G2 & _)]; [right; exact G|left; eapply N; eauto].
Qed.
Lemma plain_none l sp : In sp (plain_splits l) -> sp_tokens sp = None.
Proof. intros H. apply in_map_iff in H. destruct H as (n & <- & _). reflexivity. Qed.
Ltac plain_tokens := intros i ns new sp H Hin; repeat (apply bind_ok in H; let x := fresh in let y := fresh in destruct H as (x & y & H)); injection H as <-; eapply plain_none; eauto.

Theorem C65_sound : forall T p, sane T -> usable p -> sound_pre_tokenizer (pre_tokenize T p).
Proof.
  intros T. fix IH 1. intros p HT U. pose proof HT as [HW HG]. destruct p as [|aps ur|c|rep scheme ds| |l|find b inv|b| |ind| |n]; cbn [pre_tokenize usable] in *.
  - apply C62_sequence_sound; (eapply split_sound; [apply pred_closure|plain_tokens]).
  - unfold byte_level_pre_tokenize. apply C62_sequence_sound; [|apply C62_rewriting_sound; exact byte_norm_source].
    eapply split_sound; [apply byte_closure; exact HG|unfold byte_level_one; plain_tokens].
  - eapply split_sound; [apply (pred_closure (fun c' => N.eqb c' c) Removed)|plain_tokens].
  - eapply split_sound; [apply meta_closure; exact U|unfold metaspace_one; plain_tokens].
  - eapply split_sound; [apply invert_closure; exact HW|plain_tokens].
  - revert U. induction l as [|p l IHl]; intros U.
    + intros s pt pt' I H. injection H as <-. auto.
    + destruct U as [U1 U2]. apply C62_sequence_sound; [apply IH; assumption|apply IHl; exact U2].
  - destruct inv; (eapply split_sound; [first [apply invert_closure; exact U|apply regex_closure; exact U]|plain_tokens]).
  - eapply split_sound; [apply pred_closure|plain_tokens].
  - eapply split_sound; [apply pred_closure|plain_tokens].
  - destruct ind; (eapply split_sound; [apply pred_closure|plain_tokens]).
  - eapply split_sound; [apply scripts_closure|unfold scripts_one; plain_tokens].
  - eapply split_sound; [apply fixed_closure; exact U|]. intros i ns new sp H Hin. unfold fixed_one in H. destruct (is_nil _); [injection H as <-; destruct Hin|].
    destruct (n =? 0); [discriminate|]. apply bind_ok in H. destruct H as (x & _ & H). injection H as <-. eapply plain_none; eauto.
Qed.

(** With the expression of [Whitespace]: the longest runs of word characters and of
    other characters that are not spaces. *)
Theorem C65_whitespace : forall T word,
  (forall s, word_re T s = word_matches word (is_ws T) None 0 s) ->
  (forall s, engine_matches s 0 (word_re T s)) /\
  (forall s ps, pieces_of T PtWhitespace s ps -> class_runs (re_class word (is_ws T)) None s ps).
Proof.
  intros T word H. split.
  - intros s. rewrite H. apply (word_matches_engine word (is_ws T) s [] None 0); [cbn; lia|exact Logic.I].
  - intros s ps (segs & [E1 E2] & ->). destruct s as [|c s].
    + cbn in E2. destruct segs as [|[t f] [|[t' f'] segs]]; try discriminate. injection E2 as _ <-. cbn. constructor.
    + unfold regex_find_matches in E2. cbn [is_nil] in E2. rewrite H in E2.
      pose proof (word_segs_offsets word (is_ws T) (c :: s) None [] 0 (or_intror eq_refl)) as W. cbn [blen Nat.add] in W. cbn [blen] in E2. rewrite W in E2.
      symmetry in E2. apply seg_offsets_inj in E2; [|rewrite word_segs_concat; cbn [app]; rewrite E1; reflexivity]. subst segs.
      destruct (word_segs_runs word (is_ws T) (c :: s)) as [R _]. specialize (R []).
      rewrite nonempty_parts_id; [exact R|]. clear -R. induction R; auto.
Qed.

(** ** C53 *)
(** Pieces of [n] characters: together they are the section, all but the last
    have [n] characters and the last between 1 and [n]. *)
Theorem C53_fixed : forall T n s pt,
  sane T -> n <> 0 -> inside_history s pt -> Forall section_ok (pt_splits pt) ->
  exists pt' groups, pre_tokenize T (PtFixed n) pt = Ok pt' /\ pt_splits pt' = concat groups /\
    Forall2 (fun sp g => match sp_tokens sp with
                         | Some _ => g = [sp]
                         | None => concat (map (fun x => n_normalized (sp_norm x)) g) = n_normalized (sp_norm sp) /\
                                   forall a x b, g = a ++ x :: b -> 0 < length (n_normalized (sp_norm x)) <= n /\ (b <> [] -> length (n_normalized (sp_norm x)) = n)
                         end) (pt_splits pt) groups.
Proof.
  intros T n s pt HT Hn I L. destruct (C65_pieces T (PtFixed n) s pt HT Hn I L) as (pt' & gs & E & C & F & _). exists pt', gs. split; [exact E|]. split; [exact C|].
  clear -F Hn. induction F as [|sp g l gs G _ IH]; constructor; [|exact IH]. unfold piece_group in G. destruct (sp_tokens sp); [exact G|]. destruct G as [_ G]. cbn [pieces_of] in G.
  assert (K : forall s ps, chunks_of n s ps -> concat ps = s /\ forall a x b, ps = a ++ x :: b -> 0 < length x <= n /\ (b <> [] -> length x = n)).
  { clear -Hn. induction 1 as [|x H|x s ps H _ [IH1 IH2]].
    - split; [reflexivity|]. intros [|? a] x b E; discriminate.
    - split; [apply app_nil_r|]. intros [|? a] y b E; [|destruct a; discriminate]. injection E as <- <-. split; [lia|congruence].
    - split; [cbn [concat]; congruence|]. intros [|? a] y b E.
      + injection E as <- <-. split; [lia|auto].
      + injection E as _ E. eapply IH2; eauto. }
  apply K in G. destruct G as [G1 G2]. split; [exact G1|]. intros a x b ->. rewrite map_app in G2. cbn [map] in G2. destruct (G2 _ _ _ eq_refl) as [G3 G4]. split; [exact G3|].
  intros Hb. apply G4. destruct b; [congruence|discriminate].
Qed.

(** Finding: a length of 0, which nothing refuses, panics on any text. *)
Theorem C53_zero_refuted : forall T c s, pre_tokenize T (PtFixed 0) (pre_from (c :: s)) = Panic.
Proof. reflexivity. Qed.

(** Scripts: each piece begins with a character of a script and has only this one,
    neighbours have different scripts; only what precedes the first such character
    is lost. *)
Theorem C53_scripts : forall T s pt,
  sane T -> inside_history s pt -> Forall section_ok (pt_splits pt) ->
  exists pt' groups, pre_tokenize T PtScripts pt = Ok pt' /\ pt_splits pt' = concat groups /\
    Forall2 (fun sp g => match sp_tokens sp with
                         | Some _ => g = [sp]
                         | None => script_runs T (n_normalized (sp_norm sp)) (map (fun x => n_normalized (sp_norm x)) g)
                         end) (pt_splits pt) groups.
Proof.
  intros T s pt HT I L. destruct (C65_pieces T PtScripts s pt HT Logic.I I L) as (pt' & gs & E & C & F & _). exists pt', gs. split; [exact E|]. split; [exact C|].
  clear -F. induction F as [|sp g l gs G _ IH]; constructor; [|exact IH]. unfold piece_group in G. destruct (sp_tokens sp); [exact G|]. apply G.
Qed.

(** The pieces are determined by the text, and every character of the text after
    the first one with a script of its own is in one of them. *)
Theorem C53_scripts_kept : forall T s ps, script_runs T s ps ->
  exists lead, s = lead ++ concat ps /\ Forall (fun c => script_of T c ScAny) lead /\ (ps <> [] -> exists c r, concat ps = c :: r /\ ~ script_of T c ScAny).
Proof.
  intros T s ps (lead & rest & -> & F & P). exists lead. rewrite (script_pieces_concat _ _ _ _ P). split; [reflexivity|]. split; [exact F|].
  intros N. destruct P as [|prev c k x s ps K NA _ _ _]; [congruence|]. exists c, (x ++ s). split; [reflexivity|]. intros X. apply script_of_unique in X, K. congruence.
Qed.

Definition toy_tables : tables := mkTables (fun c => N.eqb c 32) (fun c => (48 <=? c)%N && (c <=? 57)%N) (fun _ => false)
  (fun c => if (c <? 97)%N then ScOther 0 else if (c <? 128)%N then ScOther 1 else if (0x3040 <=? c)%N && (c <? 0x30A0)%N then ScHiragana else ScHan)
  (fun s => word_matches (fun c => (97 <=? c)%N && (c <=? 122)%N) (fun c => N.eqb c 32) None 0 s)
  (fun _ => []).

(** Finding: the text before the first character with a script disappears, such as
    a leading space. *)
Theorem C53_scripts_lost_refuted : exists s pt', text s /\ pre_tokenize toy_tables PtScripts (pre_from s) = Ok pt' /\
  concat (split_texts pt') <> s.
Proof. exists [32; 97]%N. eexists. split; [repeat constructor|]. split; [vm_compute; reflexivity|]. vm_compute. discriminate. Qed.

(** ** Examples *)
Lemma toy_sane : sane toy_tables.
Proof. split; [|intros s; exact Logic.I]. apply (C65_whitespace toy_tables (fun c => (97 <=? c)%N && (c <=? 122)%N)). reflexivity. Qed.

(** "ab1!c" in chunks of 2. *)
Example C53_fixed_example : exists pt', pre_tokenize toy_tables (PtFixed 2) (pre_from [97; 98; 49; 233; 99]%N) = Ok pt' /\
  split_texts pt' = [[97; 98]; [49; 233]; [99]]%N /\ map (fun sp => offsets_original (sp_norm sp)) (pt_splits pt') = [(0, 2); (2, 5); (5, 6)].
Proof. eexists. split; [vm_compute; reflexivity|]. split; reflexivity. Qed.

(** "a bあ漢c". *)
Example C53_scripts_example : exists pt', pre_tokenize toy_tables PtScripts (pre_from [97; 32; 98; 0x3042; 0x6F22; 99]%N) = Ok pt' /\
  split_texts pt' = [[97; 32; 98]; [0x3042; 0x6F22]; [99]]%N.
Proof. eexists. split; [vm_compute; reflexivity|]. reflexivity. Qed.

(** "hi, you12" by BERT, then digits apart. *)
Example C65_example : sane toy_tables /\ usable (PtSequence [PtBert; PtDigits true]) /\
  exists pt', pre_tokenize toy_tables (PtSequence [PtBert; PtDigits true]) (pre_from [104; 105; 44; 32; 121; 49; 50]%N) = Ok pt' /\
    split_texts pt' = [[104; 105]; [44]; [121]; [49]; [50]]%N.
Proof. split; [exact toy_sane|]. split; [cbn; auto|]. eexists. split; [vm_compute; reflexivity|]. reflexivity. Qed.

Example C65_whitespace_example : exists pt', pre_tokenize toy_tables PtWhitespace (pre_from [104; 105; 33; 63; 32; 121]%N) = Ok pt' /\
  split_texts pt' = [[104; 105]; [33; 63]; [121]]%N.
Proof. eexists. split; [vm_compute; reflexivity|]. reflexivity. Qed.

(** The five behaviours on "a--b". *)
Example C65_behaviours :
  map (fun b => match pre_tokenize toy_tables (PtPunctuation b) (pre_from [97; 45; 45; 98]%N) with Ok pt => split_texts pt | _ => [] end)
    [Removed; Isolated; MergedWithPrevious; MergedWithNext; Contiguous] =
  [[[97]; [98]]; [[97]; [45]; [45]; [98]]; [[97; 45]; [45]; [98]]; [[97]; [45]; [45; 98]]; [[97]; [45; 45]; [98]]]%N.
Proof. vm_compute. reflexivity. Qed.
