(** Proofs about the JSON of the models. *)
From Coq Require Import String.
From Verif Require Import Base StrBytes ListFacts Utf8 AMap EncodingModel BpeWordModel BpeWordSpec BpeWordProofs BpeModel BpeSpec BpeProofs BpeProps WordPieceModel UnigramModel ModelFilesModel ModelFilesSpec ModelFilesProofs ModelFilesProofs2.

Ltac test_keys := repeat match goal with |- context [str_eqb (key ?a) (key ?b)] =>
  let v := eval vm_compute in (str_eqb (key a) (key b)) in replace (str_eqb (key a) (key b)) with v by (vm_compute; reflexivity); cbv iota end.

(** ** Objects *)
Definition typed {W} (kv : str * json W) : bool := str_eqb (fst kv) (key "type").

Ltac run := repeat (progress (cbn [filter fst negb each_field wl_field wp_field bpe_field uni_field bind as_str as_usize as_bool as_option or_else]; unfold typed; test_keys)).

Lemma filter_perm {A} (f : A -> bool) l l' : Permutation l l' -> Permutation (filter f l) (filter f l').
Proof.
  induction 1 as [|x l l' P IH|x y l|l l' l'' P1 IH1 P2 IH2]; cbn [filter]; [constructor|destruct (f x); auto|destruct (f x), (f y); auto|eapply perm_trans; eassumption].
  - apply perm_swap.
Qed.
Lemma filter_map_nodup {A B} (g : A -> B) (f : A -> bool) l : NoDup (map g l) -> NoDup (map g (filter f l)).
Proof.
  induction l as [|x l IH]; intros D; cbn in *; [constructor|]. inversion D as [|? ? NI D']; subst. destruct (f x); [|auto]. cbn. constructor; [|auto].
  intros H. apply NI. apply in_map_iff in H. destruct H as (y & E & H). apply filter_In in H. rewrite <- E. apply in_map. tauto.
Qed.

(** The ways to load an object: as it is, without "type", and through the wrapper. *)
Lemma load_ways {W S M} (f : S -> str * json W -> res file_error S) (st0 : S) (fin : S -> res file_error M) (name : string) (load : json W -> res file_error (@model W)) (A : arith W) (F : floats W) (wrap : M -> @model W) l l'' :
  (forall st a b, fst a <> fst b -> (let! s := f st a in f s b) = (let! s := f st b in f s a)) ->
  NoDup (map fst l) -> Permutation l l'' -> filter typed l = [(key "type", JStr (key name))] -> variant A F (key name) = Some load ->
  (forall j, load j = match j with JObj l => let! st := each_field f st0 l in let! m := fin st in Ok (wrap m) | _ => Err EFile end) ->
  forall m, (let! st := each_field f st0 (filter (fun kv => negb (typed kv)) l) in fin st) = Ok m -> (let! st := each_field f st0 l in fin st) = Ok m ->
  (let! st := each_field f st0 l'' in fin st) = Ok m /\ (let! st := each_field f st0 (filter (fun kv => negb (typed kv)) l'') in fin st) = Ok m /\ model_of_json A F (JObj l'') = Ok (wrap m).
Proof.
  intros C D P T V L m H1 H2.
  assert (X1 : each_field f st0 l'' = each_field f st0 l) by (symmetry; apply each_field_perm; assumption).
  assert (X2 : each_field f st0 (filter (fun kv => negb (typed kv)) l'') = each_field f st0 (filter (fun kv => negb (typed kv)) l)).
  { symmetry. apply each_field_perm; [exact C|apply filter_perm; exact P|apply filter_map_nodup; exact D]. }
  split; [rewrite X1; exact H2|]. split; [rewrite X2; exact H1|].
  unfold model_of_json, tag. pose proof (filter_perm typed _ _ P) as Q. rewrite T in Q. apply Permutation_length_1_inv in Q. unfold typed in Q. rewrite Q, V, L.
  fold (@typed W). change (fun kv : str * json W => negb (str_eqb (fst kv) (key "type"))) with (fun kv : str * json W => negb (typed kv)). rewrite X2.
  destruct (each_field f st0 _) as [st| |]; try discriminate. cbn [bind] in *. rewrite H1. reflexivity.
Qed.

Ltac fields F2 := repeat match type of F2 with
  | Forall2 _ (_ :: _) _ => let k := fresh "k" in let v := fresh "v" in let K := fresh "K" in let R := fresh "R" in let F3 := fresh "F" in
      inversion F2 as [|? [k v] ? ? [K R] F3]; subst; clear F2; rename F3 into F2; cbn [fst snd] in K, R; subst k
  | Forall2 _ [] _ => inversion F2; subst; clear F2
  end.

(** ** WordLevel *)
Section models.
  Context {W : Type} (A : arith W) (F : floats W).

  Lemma wl_saved m : writable (l_vocab m) -> exists j, @wl_to_json W m = Ok j /\
    forall j', rearranged j j' -> exists m', wl_of_json j' = Ok m' /\ wl_of_json (without_type j') = Ok m' /\ model_of_json A F j' = Ok (MWordLevel m') /\ same_model (W := W) (MWordLevel m) (MWordLevel m').
  Proof using.
    intros WR. destruct (ordered_vocab_ok (W := W) _ WR) as (v & E & P). eexists. split; [unfold wl_to_json; rewrite E; reflexivity|]. intros j' R.
    assert (X : exists l l'' v', j' = JObj l'' /\ Permutation l l'' /\ l = [(key "type", JStr (key "WordLevel")); (key "vocab", JObj (jvocab v')); (key "unk_token", JStr (l_unk m))] /\ Permutation v v').
    { inversion R as [| |? l' l'' F2 PL]; subst; [do 3 eexists; split; [reflexivity|]; split; [apply Permutation_refl|]; split; [reflexivity|apply Permutation_refl]|].
      fields F2. apply re_str in R0, R2. apply re_jvocab in R1. destruct R1 as (v' & -> & PV). subst. do 3 eexists. split; [reflexivity|]. split; [exact PL|]. split; [reflexivity|exact PV]. }
    clear R. destruct X as (l & l'' & v' & -> & PL & EL & PV). assert (PV' : Permutation (l_vocab m) v') by (eapply perm_trans; eassumption).
    assert (WV : writable v') by (eapply writable_perm; eassumption). exists (mkWL v' (l_unk m)).
    destruct (load_ways wl_field (None, None) (fun st : option (list (str * N)) * option str => match st with (Some vocab, Some unk) => Ok (mkWL vocab unk) | _ => Err EFile end) "WordLevel" (@load_wordlevel W) A F (fun m => MWordLevel m) l l'') with (m := mkWL v' (l_unk m)) as (L1 & L2 & L3).
    - apply wl_field_swap. exact F.
    - subst l. cbn [map fst]. repeat constructor; cbn [In]; vm_compute; intuition discriminate.
    - exact PL.
    - subst l. cbn [filter]. unfold typed. cbn [fst]. test_keys. reflexivity.
    - unfold variant. test_keys. reflexivity.
    - intros []; try reflexivity. unfold load_wordlevel, wl_of_json. destruct (each_field _ _ _) as [[[?|] [?|]]| |]; reflexivity.
    - subst l. run. rewrite (as_map_jvocab _ WV). reflexivity.
    - subst l. run. rewrite (as_map_jvocab _ WV). reflexivity.
    - split; [exact L1|]. split; [exact L2|]. split; [exact L3|]. split; [split; [apply WV|exact PV']|reflexivity].
  Qed.

  Lemma wp_saved m : writable (w_vocab m) -> (N.of_nat (w_max m) < 2 ^ 64)%N -> exists j, @wp_to_json W m = Ok j /\
    forall j', rearranged j j' -> exists m', wp_of_json j' = Ok m' /\ wp_of_json (without_type j') = Ok m' /\ model_of_json A F j' = Ok (MWordPiece m') /\ same_model (W := W) (MWordPiece m) (MWordPiece m').
  Proof using.
    intros WR MX. destruct (ordered_vocab_ok (W := W) _ WR) as (v & E & P). eexists. split; [unfold wp_to_json; rewrite E; reflexivity|]. intros j' R.
    assert (X : exists l l'' v', j' = JObj l'' /\ Permutation l l'' /\ l = [(key "type", JStr (key "WordPiece")); (key "unk_token", JStr (w_unk m)); (key "continuing_subword_prefix", JStr (w_prefix m)); (key "max_input_chars_per_word", JInt (N.of_nat (w_max m))); (key "vocab", JObj (jvocab v'))] /\ Permutation v v').
    { inversion R as [| |? l' l'' F2 PL]; subst; [do 3 eexists; split; [reflexivity|]; split; [apply Permutation_refl|]; split; [reflexivity|apply Permutation_refl]|].
      fields F2. apply re_str in R0, R1, R2. apply re_int in R3. apply re_jvocab in R4. destruct R4 as (v' & -> & PV). subst. do 3 eexists. split; [reflexivity|]. split; [exact PL|]. split; [reflexivity|exact PV]. }
    clear R. destruct X as (l & l'' & v' & -> & PL & EL & PV). assert (PV' : Permutation (w_vocab m) v') by (eapply perm_trans; eassumption).
    assert (WV : writable v') by (eapply writable_perm; eassumption). exists (mkWP v' (w_unk m) (w_prefix m) (w_max m)).
    assert (MX' : N.ltb (N.of_nat (w_max m)) (2 ^ 64) = true) by lia.
    destruct (load_ways wp_field (mkWf None None None None) (fun st => match st with mkWf (Some u) (Some p) (Some x) (Some vocab) => Ok (mkWP vocab u p (N.to_nat x)) | _ => Err EFile end) "WordPiece" (@load_wordpiece W) A F (fun m => MWordPiece m) l l'') with (m := mkWP v' (w_unk m) (w_prefix m) (w_max m)) as (L1 & L2 & L3).
    - apply wp_field_swap. exact F.
    - subst l. cbn [map fst]. repeat constructor; cbn [In]; vm_compute; intuition discriminate.
    - exact PL.
    - subst l. cbn [filter]. unfold typed. cbn [fst]. test_keys. reflexivity.
    - unfold variant. test_keys. reflexivity.
    - intros []; try reflexivity. unfold load_wordpiece, wp_of_json. destruct (each_field _ _ _) as [[[?|] [?|] [?|] [?|]]| |]; reflexivity.
    - subst l. run. rewrite MX'. run. rewrite (as_map_jvocab _ WV). run. rewrite Nat2N.id. reflexivity.
    - subst l. run. rewrite MX'. run. rewrite (as_map_jvocab _ WV). run. rewrite Nat2N.id. reflexivity.
    - split; [exact L1|]. split; [exact L2|]. split; [exact L3|]. split; [split; [apply WV|exact PV']|reflexivity].
  Qed.

  Lemma merges_read (ml : list (str * str)) : as_merge_type (JArr (map (fun ab => @JArr W [JStr (fst ab); JStr (snd ab)]) ml)) = Ok (MTuple ml).
  Proof using.
    unfold as_merge_type, as_vec. assert (X : map_res (as_pair (@as_str W) as_str) (map (fun ab => JArr [JStr (fst ab); JStr (snd ab)]) ml) = Ok ml).
    { induction ml as [|[a b] ml IH]; [reflexivity|]. cbn [map map_res as_pair as_str bind fst snd]. rewrite IH. reflexivity. }
    rewrite X. reflexivity.
  Qed.

  Context (by_rank : list ((N * N) * (N * N)) -> list ((N * N) * (N * N))).

  Lemma bpe_saved vocab merges prefix m : rank_sort by_rank -> floats_ok F -> built vocab merges prefix m -> writable vocab -> exists j, bpe_to_json F by_rank m = Ok j /\
    forall j', rearranged j j' -> exists m', bpe_of_json F j' = Ok m' /\ bpe_of_json F (without_type j') = Ok m' /\ model_of_json A F j' = Ok (MBpe m') /\ same_bpe m m'.
  Proof using.
    intros RS FO B WR. destruct (merge_texts_ok _ _ _ _ B WR _ RS) as (ml & EM & F2). destruct (ordered_vocab_ok (W := W) _ WR) as (v & E & P).
    pose proof (built_facts_of _ _ _ _ B) as BF. pose proof B as B0. destruct B0 as [_ (d & unk & sf & fu & fb & ig & BB)].
    destruct (C36_fields _ _ _ _ _ _ _ _ _ _ BB) as (ED & EU & EP & ES & EF & EFB & EI & _ & ET).
    assert (DO : d <> DOutside) by (intros ->; discriminate BB).
    eexists. split; [unfold bpe_to_json; rewrite EM; cbn [bind]; rewrite (bf_vocab_r _ _ _ _ BF), E; reflexivity|]. intros j' R.
    assert (X : exists l l'' v', j' = JObj l'' /\ Permutation l l'' /\ l = [
      (key "type", JStr (key "BPE")); (key "dropout", of_dropout F (b_dropout m)); (key "unk_token", of_option_str (b_unk m));
      (key "continuing_subword_prefix", of_option_str (b_prefix m)); (key "end_of_word_suffix", of_option_str (b_suffix m));
      (key "fuse_unk", JBool (b_fuse m)); (key "byte_fallback", JBool (b_fallback m)); (key "ignore_merges", JBool (b_ignore_merges m));
      (key "vocab", JObj (jvocab v')); (key "merges", JArr (map (fun ab => JArr [JStr (fst ab); JStr (snd ab)]) ml))] /\ Permutation v v').
    { assert (RO : forall o (x : json W), rearranged (of_option_str o) x -> x = of_option_str o) by (intros [s|] x H; [apply re_str in H|apply re_null in H]; exact H).
      inversion R as [| |? l' l'' FF PL]; subst; [do 3 eexists; split; [reflexivity|]; split; [apply Permutation_refl|]; split; [reflexivity|apply Permutation_refl]|].
      fields FF. apply re_str in R0. apply RO in R2, R3, R4. apply re_bool in R5, R6, R7. apply re_jvocab in R8. destruct R8 as (v' & -> & PV).
      apply re_arr in R9; [|intros x y I H; apply in_map_iff in I; destruct I as ([a b] & <- & _); apply re_arr in H; [exact H|]; intros z w [<-|[<-|[]]] H'; apply re_str in H'; exact H'].
      assert (RD : v1 = of_dropout F (b_dropout m)) by (clear - R1; unfold of_dropout, of_float in *; destruct (b_dropout m); [apply re_null in R1|destruct (f_finite _ _); [apply re_float in R1|apply re_null in R1]..]; exact R1).
      subst. do 3 eexists. split; [reflexivity|]. split; [exact PL|]. split; [reflexivity|exact PV]. }
    clear R. destruct X as (l & l'' & v' & -> & PL & EL & PV). assert (PV' : Permutation vocab v') by (eapply perm_trans; eassumption).
    assert (WV : writable v') by (eapply writable_perm; eassumption).
    destruct (proj2 (build_accepts v' ml d unk prefix sf fu fb ig)) as (m' & BM); [split; [exact DO|]; eapply saved_acceptable; eassumption|].
    assert (RD : as_option (as_float F) (of_dropout F d) = Ok (match d with DNone => None | _ => Some (f_prob F d) end)).
    { unfold of_dropout, of_float. destruct d; [reflexivity|destruct (FO DZero (or_introl eq_refl)) as [-> _]; reflexivity|destruct (FO DPositive (or_intror eq_refl)) as [-> _]; reflexivity|congruence]. }
    assert (RC : match (match d with DNone => None | _ => Some (f_prob F d) end) with Some w => f_class F w | None => DNone end = d).
    { destruct d; [reflexivity|apply (FO DZero (or_introl eq_refl))|apply (FO DPositive (or_intror eq_refl))|congruence]. }
    assert (RO : forall o, as_option (@as_str W) (of_option_str o) = Ok o) by (intros []; reflexivity).
    rewrite ED, EU, EP, ES, EF, EFB, EI in EL. assert (OID : forall o : option str, match o with Some t => Some t | None => None end = o) by (intros []; reflexivity).
    exists m'.
    destruct (load_ways (bpe_field F) bf0 (fun st => match bf_voc st, bf_mer st with
        | Some vocab, Some merges =>
            let! merges := match merges with MTuple l => Ok l | MLegacy l => convert_merges l end in
            custom (bpe_build vocab merges (bf_drop st) (bf_unk st) (bf_pre st) (bf_suf st) (bf_fuse st) (bf_fb st) (bf_ign st))
        | _, _ => Err EFile
        end) "BPE" (load_bpe F) A F (fun m => MBpe m) l l'') with (m := m') as (L1 & L2 & L3).
    - apply bpe_field_swap.
    - subst l. cbn [map fst]. repeat constructor; cbn [In]; vm_compute; intuition discriminate.
    - exact PL.
    - subst l. run. reflexivity.
    - unfold variant. test_keys. reflexivity.
    - intros []; try reflexivity. unfold load_bpe, bpe_of_json. destruct (each_field _ _ _) as [st| |]; reflexivity.
    - subst l. unfold bf0. run. rewrite RD. run. rewrite RC, !RO. run. rewrite !RO. run. rewrite RO. run. rewrite (as_map_jvocab _ WV). run. rewrite merges_read. run.
      cbn [bf_voc bf_mer bf_drop bf_unk bf_pre bf_suf bf_fuse bf_fb bf_ign bind]. rewrite !OID, BM. reflexivity.
    - subst l. unfold bf0. run. rewrite RD. run. rewrite RC, !RO. run. rewrite !RO. run. rewrite RO. run. rewrite (as_map_jvocab _ WV). run. rewrite merges_read. run.
      cbn [bf_voc bf_mer bf_drop bf_unk bf_pre bf_suf bf_fuse bf_fb bf_ign bind]. rewrite !OID, BM. reflexivity.
    - split; [exact L1|]. split; [exact L2|]. split; [exact L3|].
      destruct (C36_fields _ _ _ _ _ _ _ _ _ _ BM) as (ED' & EU' & EP' & ES' & EF' & EFB' & EI' & _ & ET').
      assert (B' : built v' ml prefix m') by (split; [apply WV|]; do 6 eexists; exact BM). pose proof (built_facts_of _ _ _ _ B') as BF'.
      split; [rewrite (bf_vocab _ _ _ _ BF), (bf_vocab _ _ _ _ BF'); split; [apply WV|exact PV']|]. split.
      + intros t i. rewrite (ET' t i), (ET t i); [|apply WR|apply WV]. split; apply Permutation_in; [apply Permutation_sym|]; exact PV'.
      + split; [exact (loaded_table _ _ _ _ B WR _ RS _ F2 _ _ PV' B')|]. rewrite ED, EU, EP, ES, EF, EFB, EI, ED', EU', EP', ES', EF', EFB', EI'. split; reflexivity.
  Qed.

  Lemma scores_read l : Forall (fun e : str * W => f_finite F (snd e) = true) l ->
    as_vec (as_pair as_str (as_float F)) (JArr (map (fun e => JArr [JStr (fst e); of_float F (snd e)]) l)) = Ok l.
  Proof using.
    cbn [as_vec]. induction 1 as [|[t w] l H _ IH]; [reflexivity|]. cbn [map map_res as_pair as_str bind fst snd] in *. unfold of_float. rewrite H. cbn [as_float bind]. unfold of_float in IH. rewrite IH. reflexivity.
  Qed.

  Lemma uni_saved m : savable A F (MUnigram m) -> 
    forall j', rearranged (uni_to_json F m) j' -> uni_of_json A F j' = Ok m /\ uni_of_json A F (without_type j') = Ok m /\ model_of_json A F j' = Ok (MUnigram m).
  Proof using.
    intros ((vocab & unk & fb & U) & FI & LN) j' R.
    assert (EU : u_vocab m = vocab /\ u_unk m = unk /\ u_fallback m = fb /\ (forall k, unk = Some k -> (k < N.of_nat (length vocab))%N)).
    { unfold uni_from in U. destruct (from_loop A 0 vocab [] _ _) as [[ids trie] mn]. destruct unk as [k|].
      - destruct (is_nil vocab); [discriminate|]. destruct (N.leb _ k) eqn:LE; [discriminate|]. injection U as <-. cbn. repeat split. intros k' [= <-]. lia.
      - injection U as <-. cbn. repeat split. intros k' [=]. }
    destruct EU as (EV & EK & EB & KB).
    assert (RU : forall x : json W, rearranged (match u_unk m with Some k => JInt k | None => JNull end) x -> x = match u_unk m with Some k => JInt k | None => JNull end) by (intros x H; destruct (u_unk m); [apply re_int in H|apply re_null in H]; exact H).
    assert (X : exists l l'', j' = JObj l'' /\ Permutation l l'' /\ JObj l = uni_to_json F m).
    { unfold uni_to_json in *. inversion R as [| |? l' l'' FF PL]; subst; [do 2 eexists; split; [reflexivity|]; split; [apply Permutation_refl|reflexivity]|].
      fields FF. apply re_str in R0. apply RU in R1. apply re_bool in R3.
      apply re_arr in R2; [|intros x y I H; apply in_map_iff in I; destruct I as ([a b] & <- & _); apply re_arr in H; [exact H|]; intros z w [<-|[<-|[]]] H'; [apply re_str in H'; exact H'|]; unfold of_float in *; cbn [snd] in *; destruct (f_finite F b); [apply re_float in H'|apply re_null in H']; exact H'].
      subst. do 2 eexists. split; [reflexivity|]. split; [exact PL|]. reflexivity. }
    clear R. destruct X as (l & l'' & -> & PL & EL). unfold uni_to_json in EL. injection EL as EL. rewrite EV, EK, EB in EL. rewrite EV in FI, LN. rewrite <- EV in U at 1. rewrite EV in U.
    assert (RK : as_option (@as_usize W) (match unk with Some k => JInt k | None => JNull end) = Ok unk).
    { destruct unk as [k|]; [|reflexivity]. cbn [as_option as_usize]. specialize (KB k eq_refl). assert (Y : N.ltb k (2 ^ 64) = true) by lia. rewrite Y. reflexivity. }
    apply (load_ways (uni_field F) (mkUf None false None) (fun st => match uf_voc st with Some vocab => custom (uni_from A vocab (uf_unk st) (uf_fb st)) | None => Err EFile end) "Unigram" (load_unigram A F) A F (fun m => MUnigram m) l l'').
    - apply uni_field_swap.
    - subst l. cbn [map fst]. repeat constructor; cbn [In]; vm_compute; intuition discriminate.
    - exact PL.
    - subst l. run. reflexivity.
    - unfold variant. test_keys. reflexivity.
    - intros []; try reflexivity. unfold load_unigram, uni_of_json. destruct (each_field _ _ _) as [st| |]; reflexivity.
    - subst l. run. rewrite RK. run. rewrite (scores_read _ FI). run. cbn [uf_voc uf_unk uf_fb]. rewrite U. reflexivity.
    - subst l. run. rewrite RK. run. rewrite (scores_read _ FI). run. cbn [uf_voc uf_unk uf_fb]. rewrite U. reflexivity.
  Qed.
End models.
