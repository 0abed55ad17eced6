(** The optimised search of Unigram. *)
From Verif Require Import Base StrBytes ListFacts AMap Utf8 EncodingModel BpeWordModel BpeWordProofs BpeModel TrieModel TrieProps UnigramModel UnigramSpec.

(** ** Joining *)
Lemma join_cons_false x l : join_marked ((x, false) :: l) = x :: join_marked l.
Proof. reflexivity. Qed.

Lemma join_nil_iff l : join_marked l = [] <-> l = [].
Proof.
  destruct l as [|[x []] l]; cbn; [tauto| |split; discriminate].
  destruct (join_marked l); [|destruct (marked_first l)]; split; discriminate.
Qed.

Lemma join_app_false a x b : join_marked (a ++ (x, false) :: b) = join_marked a ++ x :: join_marked b.
Proof.
  induction a as [|[y m] a IH]; [reflexivity|]. destruct m; cbn [app join_marked]; rewrite IH; [|reflexivity].
  destruct a as [|[z n] a].
  - cbn. reflexivity.
  - destruct (join_marked ((z, n) :: a)) as [|w ws] eqn:E; [apply join_nil_iff in E; discriminate|]. cbn [app marked_first]. destruct n; reflexivity.
Qed.

Lemma join_all_true l : join_marked (map (fun x => (x, true)) l) = match l with [] => [] | _ => [concat l] end.
Proof.
  induction l as [|x l IH]; [reflexivity|]. cbn [map join_marked]. rewrite IH. destruct l as [|y l]; [cbn; rewrite app_nil_r; reflexivity|]. reflexivity.
Qed.

Lemma join_concat l : concat (join_marked l) = concat (map fst l).
Proof.
  induction l as [|[x m] l IH]; [reflexivity|]. destruct m; cbn [join_marked map concat fst]; [|rewrite IH; reflexivity].
  destruct (join_marked l) as [|y ys]; [cbn in *; rewrite <- IH; reflexivity|]. destruct (marked_first l); cbn [concat] in *; rewrite <- IH; [rewrite app_assoc|]; reflexivity.
Qed.

(** ** Bytes *)
Lemma encode_prefix t : forall s q, text_ok t -> text_ok s -> encode_utf8 s = encode_utf8 t ++ q -> exists r, s = t ++ r /\ q = encode_utf8 r.
Proof.
  induction t as [|c t IH]; intros s q Ht Hs E; [exists s; cbn in E; auto|]. inversion Ht as [|? ? Hc Ht']; subst.
  destruct s as [|d s].
  - apply (f_equal (@length N)) in E. rewrite app_length, !encode_utf8_len in E. cbn in E. pose proof (len_utf8_pos c). lia.
  - inversion Hs as [|? ? Hd Hs']; subst. cbn [encode_utf8 flat_map] in E. rewrite <- app_assoc in E.
    destruct (encode_step c (flat_map encode_char t ++ q) Hc) as (b & r & E1 & S1). destruct (encode_step d (flat_map encode_char s) Hd) as (b' & r' & E2 & S2).
    rewrite E1, E2 in E. injection E as <- <-. rewrite S1 in S2. injection S2 as <- E3. destruct (IH s q Ht' Hs' (eq_sym E3)) as (r2 & -> & ->). exists r2. auto.
Qed.

Lemma encode_nil t : encode_utf8 t = [] -> t = [].
Proof. intros E. apply (f_equal (@length N)) in E. rewrite encode_utf8_len in E. apply blen_0. exact E. Qed.

Section proofs.
  Context {W : Type} (A : arith W).

  (** ** Building *)
  Record wf (m : unigram W) : Prop := {
    wf_ids : forall t id, aget str_eqb t (u_ids m) = Some id <-> exists w, last_entry (u_vocab m) t id w;
    wf_trie : u_trie m = trie_of (map (fun e => encode_utf8 (fst e)) (u_vocab m));
    wf_text : Forall (fun e => text_ok (fst e)) (u_vocab m);
    wf_unk : forall k, u_unk m = Some k -> (k < N.of_nat (length (u_vocab m)))%N;
    wf_bos : u_bos m = (N.of_nat (length (u_vocab m)) + 1)%N;
    wf_eos : u_eos m = (N.of_nat (length (u_vocab m)) + 2)%N;
    wf_fuse : u_fuse m = true }.

  Lemma from_loop_spec vocab : forall done ids trie lo ids' trie' lo',
    (forall t id, aget str_eqb t ids = Some id <-> exists w, last_entry done t id w) -> trie = trie_of (map (fun e => encode_utf8 (fst e)) done) ->
    from_loop A (N.of_nat (length done)) vocab ids trie lo = (ids', trie', lo') ->
    (forall t id, aget str_eqb t ids' = Some id <-> exists w, last_entry (done ++ vocab) t id w) /\ trie' = trie_of (map (fun e => encode_utf8 (fst e)) (done ++ vocab)).
  Proof.
    induction vocab as [|[token score] vocab IH]; intros done ids trie lo ids' trie' lo' HI HT E; cbn [from_loop] in E.
    - injection E as <- <- <-. rewrite app_nil_r. auto.
    - replace (N.of_nat (length done) + 1)%N with (N.of_nat (length (done ++ [(token, score)]))) in E by (rewrite app_length; cbn; lia).
      apply IH in E; [rewrite <- app_assoc in E; exact E| |].
      + intros t id. rewrite (aget_aset str_eqb str_eqb_eq). destruct (str_eqb t token) eqn:ET.
        * apply str_eqb_eq in ET. subst t. split.
          -- intros X. injection X as <-. exists score. unfold last_entry. rewrite Nat2N.id. split; [rewrite nth_error_app2, Nat.sub_diag by lia; reflexivity|].
             intros j u L X. assert (j < length (done ++ [(token, score)])) by (apply nth_error_Some; congruence). rewrite app_length in *. cbn in *. lia.
          -- intros (w & X & Y). destruct (Nat.lt_trichotomy (N.to_nat id) (length done)) as [L|[L|L]].
             ++ exfalso. apply (Y (length done) score L). rewrite nth_error_app2, Nat.sub_diag by lia. reflexivity.
             ++ f_equal. lia.
             ++ assert (N.to_nat id < length (done ++ [(token, score)])) by (apply nth_error_Some; congruence). rewrite app_length in *. cbn in *. lia.
        * rewrite HI. assert (NT : t <> token) by (intros ->; rewrite str_eqb_refl in ET; discriminate). split; intros (w & X & Y); exists w.
          -- assert (N.to_nat id < length done) by (apply nth_error_Some; congruence). split; [rewrite nth_error_app1 by lia; exact X|].
             intros j u L Z. destruct (Nat.lt_trichotomy j (length done)) as [L2|[->|L2]].
             ++ rewrite nth_error_app1 in Z by lia. eapply Y; eauto.
             ++ rewrite nth_error_app2, Nat.sub_diag in Z by lia. injection Z as Z _. congruence.
             ++ assert (j < length (done ++ [(token, score)])) by (apply nth_error_Some; congruence). rewrite app_length in *. cbn in *. lia.
          -- destruct (Nat.lt_ge_cases (N.to_nat id) (length done)) as [L|L].
             ++ rewrite nth_error_app1 in X by lia. split; [exact X|]. intros j u L2 Z. assert (j < length done) by (apply nth_error_Some; congruence). apply (Y j u L2). rewrite nth_error_app1 by lia. exact Z.
             ++ exfalso. rewrite nth_error_app2 in X by lia. destruct (N.to_nat id - length done) as [|n]; cbn in X; [injection X as X _; congruence|destruct n; discriminate].
      + rewrite HT. unfold trie_of. rewrite map_app, fold_left_app. reflexivity.
  Qed.

  Lemma made_wf m : made A m -> wf m.
  Proof.
    intros (vocab & unk & fb & m0 & lo & E & T & ->). unfold uni_from in E.
    destruct (from_loop A 0 vocab [] tnode0 (a_inf A)) as [[ids trie] lo0] eqn:EL.
    assert (F := from_loop_spec vocab [] [] tnode0 (a_inf A) ids trie lo0). cbn [app length] in F. destruct F as [F1 F2]; [|reflexivity|exact EL|].
    { intros t id. cbn. split; [discriminate|]. intros (w & X & _). destruct (N.to_nat id); discriminate. }
    assert (X : m0 = mkUni ids vocab trie lo0 unk (N.of_nat (length vocab) + 1) (N.of_nat (length vocab) + 2) true fb /\ forall k, unk = Some k -> (k < N.of_nat (length vocab))%N).
    { destruct unk as [k|].
      - destruct (is_nil vocab); [discriminate|]. destruct (N.leb_spec (N.of_nat (length vocab)) k); [discriminate|]. injection E as <-. split; [reflexivity|]. intros k' X. injection X as <-. assumption.
      - injection E as <-. split; [reflexivity|]. intros k X. discriminate. }
    destruct X as [-> U]. constructor; cbn; auto.
  Qed.

  Lemma last_entry_exists (vocab : list (str * W)) t : In t (map fst vocab) -> exists id w, last_entry vocab t id w.
  Proof.
    intros H. apply in_map_iff in H. destruct H as ([t' w] & <- & H). cbn. clear - H. revert w t' H. induction vocab as [|e vocab IH] using rev_ind; intros w t H; [destruct H|].
    destruct (list_eq_dec N.eq_dec (fst e) t) as [E|N].
    - exists (N.of_nat (length vocab)), (snd e). unfold last_entry. rewrite Nat2N.id. split; [rewrite nth_error_app2, Nat.sub_diag by lia; cbn; destruct e; cbn in *; subst; reflexivity|].
      intros j u L X. assert (j < length (vocab ++ [e])) by (apply nth_error_Some; congruence). rewrite app_length in *. cbn in *. lia.
    - apply in_app_or in H. destruct H as [H|[H|[]]]; [|subst e; cbn in N; congruence]. destruct (IH _ _ H) as (id & u & X & Y). exists id, u.
      assert (N.to_nat id < length vocab) by (apply nth_error_Some; congruence). split; [rewrite nth_error_app1 by lia; exact X|]. intros j v L Z.
      destruct (Nat.lt_ge_cases j (length vocab)) as [L2|L2]; [rewrite nth_error_app1 in Z by lia; eapply Y; eauto|].
      rewrite nth_error_app2 in Z by lia. destruct (j - length vocab) as [|n]; cbn in Z; [injection Z as Z; subst e; cbn in N; congruence|destruct n; discriminate].
  Qed.

  Lemma last_entry_in (vocab : list (str * W)) t id w : last_entry vocab t id w -> In t (map fst vocab) /\ In (t, w) vocab.
  Proof. intros [X _]. apply nth_error_In in X. split; [|exact X]. apply in_map_iff. exists (t, w). auto. Qed.

  Lemma last_entry_fun (vocab : list (str * W)) t id w id' w' : last_entry vocab t id w -> last_entry vocab t id' w' -> id = id' /\ w = w'.
  Proof.
    intros [X Y] [X' Y']. assert (E : id = id').
    { destruct (Nat.lt_trichotomy (N.to_nat id) (N.to_nat id')) as [L|[L|L]]; [exfalso; eapply Y; eauto|lia|exfalso; eapply Y'; eauto]. }
    subst id'. rewrite X in X'. injection X' as <-. auto.
  Qed.

  Section sentence.
    Context (m : unigram W) (Hwf : wf m).

    (** The tokens found at a position. *)
    Lemma search_tokens rest : text_ok rest -> exists ts, common_prefix_search (u_trie m) (encode_utf8 rest) = map encode_utf8 ts /\
      (forall t, In t ts <-> t <> [] /\ In t (map fst (u_vocab m)) /\ exists q, rest = t ++ q) /\ Forall (fun t => text_ok t) ts.
    Proof.
      intros HR. rewrite (wf_trie m Hwf). set (els := map (fun e => encode_utf8 (fst e)) (u_vocab m)).
      assert (X : forall l, (forall b, In b l -> In b (common_prefix_search (trie_of els) (encode_utf8 rest))) ->
        exists ts, l = map encode_utf8 ts /\ Forall (fun t => t <> [] /\ In t (map fst (u_vocab m)) /\ (exists q, rest = t ++ q) /\ text_ok t) ts).
      { induction l as [|b l IH]; intros H; [exists []; auto|]. destruct IH as (ts & -> & F); [intros x Hx; apply H; right; exact Hx|].
        pose proof (H b (or_introl eq_refl)) as Hb. apply C44_exact in Hb. destruct Hb as (Hb & N & q & E). unfold els in Hb. apply in_map_iff in Hb. destruct Hb as (e & <- & He).
        pose proof (wf_text m Hwf) as HT. rewrite Forall_forall in HT. specialize (HT e He). destruct (encode_prefix _ _ _ HT HR E) as (r & Er & _).
        exists (fst e :: ts). split; [reflexivity|]. constructor; [|exact F]. repeat split; [intros Z; apply N; rewrite Z; reflexivity|apply in_map; exact He|eauto|exact HT]. }
      destruct (X _ (fun b H => H)) as (ts & E & F). exists ts. split; [exact E|]. split.
      - intros t. split.
        + intros H. rewrite Forall_forall in F. destruct (F _ H) as (a & b & c & _). auto.
        + intros (N & H & q & Er). assert (Hb : In (encode_utf8 t) (common_prefix_search (trie_of els) (encode_utf8 rest))).
          { apply C44_exact. split; [unfold els; apply in_map_iff in H; destruct H as (e & <- & He); apply in_map_iff; exists e; auto|].
            split; [intros Z; apply N, encode_nil; exact Z|]. exists (encode_utf8 q). rewrite Er. apply encode_utf8_app. }
          rewrite E in Hb. apply in_map_iff in Hb. destruct Hb as (t' & E' & H'). enough (t' = t) by (subst; exact H').
          rewrite Forall_forall in F. destruct (F _ H') as (_ & _ & _ & T'). apply encode_utf8_inj; [exact T'| |exact E'].
          pose proof (wf_text m Hwf) as HT. rewrite Forall_forall in HT. apply in_map_iff in H. destruct H as (e & <- & He). apply HT. exact He.
      - eapply Forall_impl; [|exact F]. cbn. tauto.
    Qed.

    (** ** The table *)
    Context (s : str) (Hs : text_ok s) (ok : W -> Prop) (HL : score_laws A ok).

    (** [Done p it]: the item [it] has been tried after the prefix [p]. *)
    Record table (nodes : list (bnode W)) (Done : str -> str * N * W -> Prop) : Prop := {
      tb_len : length nodes = S (blen s);
      tb_ok : forall i n, nth_error nodes i = Some n -> ok (bn_score n);
      tb_done : forall p' x id w, Done p' (x, id, w) -> ok w;
      tb_root : nth_error nodes 0 = Some (bnode0 A);
      tb_node : forall p q n, s = p ++ q -> p <> [] -> nth_error nodes (blen p) = Some n ->
        match bn_start n with
        | None => True
        | Some st => exists p' x w n', p = p' ++ x /\ x <> [] /\ st = blen p' /\ Done p' (x, bn_id n, w) /\ nth_error nodes (blen p') = Some n' /\ bn_score n = a_add A w (bn_score n')
        end;
      tb_best : forall p' x id w, Done p' (x, id, w) -> exists n n', nth_error nodes (blen p') = Some n' /\ nth_error nodes (blen (p' ++ x)) = Some n /\
        bn_start n <> None /\ a_gtb A (a_add A w (bn_score n')) (bn_score n) = false }.

    Definition add_done (Done : str -> str * N * W -> Prop) (p : str) (it : str * N * W) : str -> str * N * W -> Prop :=
      fun p' it' => Done p' it' \/ (p' = p /\ it' = it).

    Lemma blen_app_pos p x : x <> [] -> blen p < blen (p ++ x).
    Proof. intros N. rewrite blen_app. destruct x as [|c x]; [congruence|]. cbn. pose proof (len_utf8_pos c). lia. Qed.

    (** One relaxation; sources are never longer than the current prefix. *)
    Lemma relax_table nodes Done p x q id w here : table nodes Done -> s = p ++ x ++ q -> x <> [] -> ok w ->
      (forall p' it, Done p' it -> blen p' <= blen p) ->
      nth_error nodes (blen p) = Some here ->
      exists nodes', relax A nodes (blen p + blen x) (a_add A w (bn_score here)) (blen p) (Ok id) = Ok nodes' /\
        table nodes' (add_done Done p (x, id, w)) /\ (forall i, i <= blen p -> nth_error nodes' i = nth_error nodes i) /\
        (forall i n, nth_error nodes i = Some n -> bn_start n <> None -> exists n', nth_error nodes' i = Some n' /\ bn_start n' <> None).
    Proof.
      intros T Es Nx Ow HD Eh. pose proof (blen_app_pos p x Nx) as LP. rewrite blen_app in LP. unfold relax.
      assert (LK : blen p + blen x < length nodes) by (rewrite (tb_len _ _ T), Es, !blen_app; lia).
      destruct (nth_error nodes (blen p + blen x)) as [target|] eqn:ET; [|apply nth_error_None in ET; lia]. cbn [of_option bind].
      assert (OC : ok (a_add A w (bn_score here))) by (apply (sl_add _ _ HL); [exact Ow|apply (tb_ok _ _ T _ _ Eh)]).
      assert (OT : ok (bn_score target)) by apply (tb_ok _ _ T _ _ ET).
      destruct (match bn_start target with None => true | Some _ => a_gtb A (a_add A w (bn_score here)) (bn_score target) end) eqn:EC; cbn [bind].
      - eexists. split; [reflexivity|]. set (new := mkB id (a_add A w (bn_score here)) (Some (blen p))).
        assert (U : forall i, nth_error (upd nodes (blen p + blen x) (fun _ => new)) i = if blen p + blen x =? i then Some new else nth_error nodes i).
        { intros i. rewrite nth_error_upd. destruct (Nat.eqb_spec (blen p + blen x) i) as [<-|N]; [rewrite ET; reflexivity|reflexivity]. }
        assert (LOW : forall i, i <= blen p -> nth_error (upd nodes (blen p + blen x) (fun _ => new)) i = nth_error nodes i).
        { intros i L. rewrite U. replace (blen p + blen x =? i) with false by (symmetry; apply Nat.eqb_neq; lia). reflexivity. }
        split; [|split; [exact LOW|]].
        2:{ intros i n E N. rewrite U. destruct (Nat.eqb_spec (blen p + blen x) i); [exists new; split; [reflexivity|discriminate]|eauto]. }
        constructor.
        + rewrite upd_length. apply (tb_len _ _ T).
        + intros i n E. rewrite U in E. destruct (Nat.eqb_spec (blen p + blen x) i); [injection E as <-; exact OC|eapply (tb_ok _ _ T); eauto].
        + intros p' x' id' w' [D|[_ E]]; [apply (tb_done _ _ T _ _ _ _ D)|injection E as _ _ ->; exact Ow].
        + rewrite LOW by lia. apply (tb_root _ _ T).
        + intros p0 q0 n E0 N0 En. rewrite U in En. destruct (Nat.eqb_spec (blen p + blen x) (blen p0)) as [EB|NB].
          * injection En as <-. cbn. exists p, x, w, here. assert (p0 = p ++ x).
            { rewrite Es in E0. rewrite app_assoc in E0. apply blen_split_eq in E0; [symmetry; tauto|rewrite blen_app; exact EB]. }
            repeat split; auto; [right; auto|]. rewrite LOW by lia. exact Eh.
          * pose proof (tb_node _ _ T p0 q0 n E0 N0 En) as H. destruct (bn_start n); [|exact I]. destruct H as (p' & x' & w' & n' & H1 & H2 & H3 & H4 & H5 & H6).
            exists p', x', w', n'. repeat split; auto; [left; exact H4|]. rewrite LOW; [exact H5|]. apply (HD _ _ H4).
        + intros p' x' id' w' [D|[-> E]].
          * destruct (tb_best _ _ T _ _ _ _ D) as (n & n' & E1 & E2 & E3 & E4). pose proof (HD _ _ D) as LD.
            assert (ON : ok (a_add A w' (bn_score n'))).
            { apply (sl_add _ _ HL); [apply (tb_done _ _ T _ _ _ _ D)|apply (tb_ok _ _ T _ _ E1)]. }
            rewrite LOW by exact LD. rewrite U. destruct (Nat.eqb_spec (blen p + blen x) (blen (p' ++ x'))) as [EB|NB]; [|eauto 8].
            exists new, n'. repeat split; auto; [discriminate|]. rewrite <- EB, ET in E2. injection E2 as <-. cbn.
            destruct (bn_start target); [|congruence]. eapply (sl_trans _ _ HL); [| | |exact E4|]; auto. apply (sl_total _ _ HL); auto.
          * injection E as -> -> ->. exists new, here. rewrite LOW by lia. rewrite U, blen_app, Nat.eqb_refl. repeat split; auto; [discriminate|]. cbn.
            destruct (a_gtb A (a_add A w (bn_score here)) (a_add A w (bn_score here))) eqn:X; [|reflexivity]. pose proof (sl_total _ _ HL _ _ OC OC X). congruence.
      - exists nodes. split; [reflexivity|]. destruct (bn_start target) as [tst|] eqn:EST; [|discriminate]. split; [|split; [auto|eauto]].
        destruct T as [t1 t2 t2' t3 t4 t5]. constructor; auto.
        + intros p' x' id' w' [D|[_ E]]; [apply (t2' _ _ _ _ D)|injection E as _ _ ->; exact Ow].
        + intros p0 q0 n E0 N0 En. pose proof (t4 p0 q0 n E0 N0 En) as H. destruct (bn_start n); [|exact I]. destruct H as (p' & x' & w' & n' & H1 & H2 & H3 & H4 & H5 & H6). exists p', x', w', n'. repeat split; auto. left; exact H4.
        + intros p' x' id' w' [D|[-> E]]; [eauto|]. injection E as -> -> ->. exists target, here. rewrite blen_app. repeat split; auto. congruence.
    Qed.

    Lemma table_ext nodes D D' : table nodes D -> (forall p it, D p it <-> D' p it) -> table nodes D'.
    Proof.
      intros [t1 t2 t2' t3 t4 t5] E. constructor; auto.
      - intros p' x id w H. apply E in H. eauto.
      - intros p q n E0 N0 En. pose proof (t4 p q n E0 N0 En) as H. destruct (bn_start n); [|exact I]. destruct H as (p' & x' & w' & n' & H1 & H2 & H3 & H4 & H5 & H6). exists p', x', w', n'. repeat split; auto. apply E. exact H4.
      - intros p' x id w H. apply E in H. eauto.
    Qed.

    Context (Hok : forall t w, In (t, w) (u_vocab m) -> ok w) (Hunk : ok (unk_score A m)).

    Definition keeps (p : str) (nodes nodes' : list (bnode W)) : Prop :=
      (forall i, i <= blen p -> nth_error nodes' i = nth_error nodes i) /\
      (forall i n, nth_error nodes i = Some n -> bn_start n <> None -> exists n', nth_error nodes' i = Some n' /\ bn_start n' <> None).

    Lemma keeps_refl p nodes : keeps p nodes nodes.
    Proof. split; [auto|eauto]. Qed.

    Lemma keeps_trans p n1 n2 n3 : keeps p n1 n2 -> keeps p n2 n3 -> keeps p n1 n3.
    Proof. intros [a b] [c d]. split; [intros i L; rewrite c, a by exact L; reflexivity|]. intros i n E N. destruct (b i n E N) as (n' & E' & N'). eauto. Qed.

    Lemma opt_tokens_table p rest mblen here ts : s = p ++ rest ->
      Forall (fun t => (t <> [] /\ In t (map fst (u_vocab m)) /\ exists q, rest = t ++ q) /\ text_ok t) ts ->
      forall nodes Done single, table nodes Done -> (forall p' it, Done p' it -> blen p' <= blen p) -> nth_error nodes (blen p) = Some here ->
      exists nodes', opt_tokens A m (blen p) mblen (bn_score here) (map encode_utf8 ts) nodes single = Ok (nodes', single || existsb (fun t => blen t =? mblen) ts) /\
        table nodes' (fun p' it => Done p' it \/ (p' = p /\ exists t id w, In t ts /\ last_entry (u_vocab m) t id w /\ it = (t, id, w))) /\ keeps p nodes nodes'.
    Proof.
      intros Es. induction ts as [|t ts IH]; intros F nodes Done single T HD Eh; cbn [map opt_tokens existsb].
      - exists nodes. rewrite orb_false_r. split; [reflexivity|]. split; [|apply keeps_refl]. eapply table_ext; [exact T|]. intros p' it. split; [auto|]. intros [H|(_ & t & id & w & [] & _)]. exact H.
      - inversion F as [|? ? ((N & V & q & Er) & Tt) F']; subst. rewrite encode_utf8_len, from_utf8_encode by exact Tt. cbn [of_option bind].
        destruct (last_entry_exists _ _ V) as (id & w & LE). replace (aget str_eqb t (u_ids m)) with (Some id) by (symmetry; apply (wf_ids m Hwf); eauto). cbn [of_option bind].
        unfold u_item. replace (nth_error (u_vocab m) (N.to_nat id)) with (Some (t, w)) by (symmetry; apply LE). cbn [of_option bind snd].
        destruct (relax_table nodes Done p t q id w here T Es N (Hok _ _ (proj2 (last_entry_in _ _ _ _ LE))) HD Eh) as (nodes1 & E1 & T1 & K1 & K2). rewrite E1. cbn [bind].
        destruct (IH F' nodes1 _ (single || (blen p + blen t - blen p =? mblen)) T1) as (nodes2 & E2 & T2 & K3).
        { intros p' it [H|[-> _]]; [apply (HD _ _ H)|lia]. }
        { rewrite K1 by lia. exact Eh. }
        exists nodes2. rewrite E2. split; [f_equal; f_equal; rewrite <- orb_assoc; do 2 f_equal; f_equal; lia|]. split; [|eapply keeps_trans; [split; [exact K1|exact K2]|exact K3]].
        eapply table_ext; [exact T2|]. intros p' it. unfold add_done. split.
        + intros [[H|[-> ->]]|(-> & t' & id' & w' & H1 & H2 & ->)]; [auto| |]; right; split; auto; [exists t, id, w; cbn; auto|exists t', id', w'; cbn; auto].
        + intros [H|(-> & t' & id' & w' & [<-|H1] & H2 & ->)]; [auto| |].
          * left. right. destruct (last_entry_fun _ _ _ _ _ _ LE H2) as [-> ->]. auto.
          * right. split; auto. exists t', id', w'. auto.
    Qed.

    (** Everything tried once the prefixes shorter than [k] bytes have been sources. *)
    Definition done_to (k : nat) : str -> str * N * W -> Prop :=
      fun p' it => blen p' < k /\ item_ok A m it /\ exists r, s = p' ++ fst (fst it) ++ r.

    Definition reached (nodes : list (bnode W)) (k : nat) : Prop :=
      forall p q n, s = p ++ q -> p <> [] -> blen p <= k -> nth_error nodes (blen p) = Some n -> bn_start n <> None.

    Lemma opt_loop_table rest : forall p nodes, s = p ++ rest -> table nodes (done_to (blen p)) -> reached nodes (blen p) ->
      (exists nodes', opt_loop A m rest (blen p) nodes = Ok nodes' /\ table nodes' (done_to (blen s)) /\ reached nodes' (blen s)) \/
      (opt_loop A m rest (blen p) nodes = Err EMissingUnkId /\ u_unk m = None /\ exists c, In c rest /\ ~ In [c] (map fst (u_vocab m))).
    Proof.
      induction rest as [|c rest IH]; intros p nodes Es T R; cbn [opt_loop].
      - left. exists nodes. rewrite app_nil_r in Es. replace (blen s) with (blen p) by (rewrite Es; reflexivity). auto.
      - assert (LP : blen p < length nodes) by (rewrite (tb_len _ _ T), Es, blen_app; lia).
        destruct (nth_error nodes (blen p)) as [here|] eqn:Eh; [|apply nth_error_None in Eh; lia]. cbn [of_option bind].
        assert (Hr : text_ok (c :: rest)) by (rewrite Es in Hs; apply Forall_app in Hs; tauto).
        destruct (search_tokens (c :: rest) Hr) as (ts & E & I & Ft). rewrite E.
        assert (F : Forall (fun t => (t <> [] /\ In t (map fst (u_vocab m)) /\ exists q, c :: rest = t ++ q) /\ text_ok t) ts).
        { apply Forall_forall. intros t Ht. split; [apply I; exact Ht|]. rewrite Forall_forall in Ft. apply Ft. exact Ht. }
        destruct (opt_tokens_table p (c :: rest) (len_utf8 c) here ts Es F nodes _ false T) as (nodes1 & E1 & T1 & K1 & K2); [intros p' it (H & _); lia|exact Eh|].
        rewrite E1. cbn [bind orb].
        assert (SINGLE : existsb (fun t => blen t =? len_utf8 c) ts = true <-> In [c] (map fst (u_vocab m))).
        { rewrite existsb_exists. split.
          - intros (t & Ht & B). apply Nat.eqb_eq in B. apply I in Ht. destruct Ht as (N & V & q & Eq). destruct t as [|d t]; [congruence|]. cbn in Eq. injection Eq as <- Eq.
            cbn in B. assert (t = []) by (apply blen_0; lia). subst t. exact V.
          - intros V. exists [c]. split; [apply I; repeat split; [discriminate|exact V|exists rest; reflexivity]|]. cbn. apply Nat.eqb_eq. lia. }
        assert (NEXT : forall nodes2, table nodes2 (done_to (blen p + len_utf8 c)) -> keeps p nodes1 nodes2 -> (exists n, nth_error nodes2 (blen p + len_utf8 c) = Some n /\ bn_start n <> None) ->
          (exists nodes', opt_loop A m rest (blen p + len_utf8 c) nodes2 = Ok nodes' /\ table nodes' (done_to (blen s)) /\ reached nodes' (blen s)) \/
          (opt_loop A m rest (blen p + len_utf8 c) nodes2 = Err EMissingUnkId /\ u_unk m = None /\ exists c0, In c0 (c :: rest) /\ ~ In [c0] (map fst (u_vocab m)))).
        { intros nodes2 T2 [K3 K4] RC. specialize (IH (p ++ [c]) nodes2). rewrite blen_app in IH. cbn [blen] in IH. rewrite Nat.add_0_r in IH. destruct IH as [IH|(IH1 & IH2 & c0 & IH3 & IH4)].
          - rewrite <- app_assoc. exact Es.
          - exact T2.
          - intros p0 q0 n0 E0 N0 L0 En. destruct (Nat.le_gt_cases (blen p0) (blen p)) as [LE|GT].
            + rewrite K3, K1 in En by exact LE. eapply R; eauto.
            + assert (EP : p0 = p ++ [c]).
              { rewrite Es in E0. symmetry in E0. symmetry in E0. destruct (blen_prefix_cmp _ _ _ _ E0 ltac:(lia)) as (z & -> & Ez). destruct z as [|d z]; [rewrite app_nil_r in GT; lia|].
                cbn in Ez. injection Ez as <- Ez. rewrite blen_app in L0. cbn in L0. assert (z = []) by (apply blen_0; lia). subst z. reflexivity. }
              subst p0. rewrite blen_app in En. cbn in En. rewrite Nat.add_0_r in En. destruct RC as (n & En' & N). congruence.
          - left. exact IH.
          - right. repeat split; auto. exists c0. split; [right; exact IH3|exact IH4]. }
        assert (STEP : forall p' z, s = p' ++ z -> blen p' < blen p + len_utf8 c <-> blen p' < blen p \/ p' = p).
        { intros p' z Ez. pose proof (len_utf8_pos c). split; [|intros [H'| ->]; lia]. intros L. destruct (Nat.lt_ge_cases (blen p') (blen p)) as [L1|L1]; [auto|right].
          rewrite Es in Ez. destruct (blen_prefix_cmp _ _ _ _ Ez L1) as (y & -> & Ey). destruct y as [|d y]; [apply app_nil_r|]. cbn in Ey. injection Ey as <- _. rewrite blen_app in L. cbn in L. lia. }
        assert (HERE : forall x id w, item_ok A m (x, id, w) /\ (exists r, s = p ++ x ++ r) <->
           (exists t id' w', In t ts /\ last_entry (u_vocab m) t id' w' /\ (x, id, w) = (t, id', w')) \/ (x = [c] /\ ~ In [c] (map fst (u_vocab m)) /\ u_unk m = Some id /\ w = unk_score A m)).
        { intros x id w. split.
          - intros [[[N LE]|(c' & -> & NV & U & ->)] (r & Er)]; rewrite Es in Er; apply app_inv_head in Er.
            + left. exists x, id, w. repeat split; try apply LE. apply I. repeat split; [exact N|apply (last_entry_in _ _ _ _ LE)|eauto].
            + cbn in Er. injection Er as <- <-. right. auto.
          - intros [(t & id' & w' & Ht & LE & E')|(-> & NV & U & ->)].
            + injection E' as -> -> ->. apply I in Ht. destruct Ht as (N & V & q & Eq). split; [left; auto|]. exists q. rewrite Es, Eq. reflexivity.
            + split; [right; exists c; auto|]. exists rest. exact Es. }
        destruct (existsb (fun t => blen t =? len_utf8 c) ts) eqn:EX.
        + assert (V : In [c] (map fst (u_vocab m))) by (apply SINGLE; reflexivity). cbn [bind]. 
          assert (T2 : table nodes1 (done_to (blen p + len_utf8 c))).
          { eapply table_ext; [exact T1|]. intros p' [[x id] w]. unfold done_to. cbn [fst snd]. split.
            - intros [(L & Hi & r & Er)|(-> & H)].
              + split; [lia|]. eauto.
              + destruct (proj2 (HERE x id w) (or_introl H)) as [Hi Hr']. split; [pose proof (len_utf8_pos c); lia|]. auto.
            - intros (L & Hi & r & Er). apply (STEP p' _ Er) in L. destruct L as [L| ->]; [left; eauto|right]. split; [reflexivity|].
              destruct (proj1 (HERE x id w)) as [H|(_ & NV & _)]; [eauto|exact H|contradiction]. }
          apply NEXT; [exact T2|apply keeps_refl|].
          destruct (last_entry_exists _ _ V) as (id & w & LE).
          destruct (tb_best _ _ T2 p [c] id w) as (n & n' & _ & En & N & _).
          { split; [pose proof (len_utf8_pos c); lia|]. split; [left; split; [discriminate|exact LE]|]. exists rest. exact Es. }
          rewrite blen_app in En. cbn in En. rewrite Nat.add_0_r in En. eauto.
        + assert (NV : ~ In [c] (map fst (u_vocab m))) by (intros V; apply SINGLE in V; discriminate).
          assert (Eh1 : nth_error nodes1 (blen p) = Some here) by (rewrite K1 by lia; exact Eh).
          destruct (u_unk m) as [unk|] eqn:EU.
          * destruct (relax_table nodes1 _ p [c] rest unk (unk_score A m) here T1 Es ltac:(discriminate) Hunk) as (nodes2 & E2 & T2 & K3 & K4); [|exact Eh1|].
            { intros p' it [(L & _)|(-> & _)]; lia. }
            cbn [blen] in E2. rewrite Nat.add_0_r in E2. rewrite E2. cbn [bind].
            assert (T3 : table nodes2 (done_to (blen p + len_utf8 c))).
            { eapply table_ext; [exact T2|]. intros p' [[x id] w]. unfold add_done, done_to. cbn [fst snd]. split.
              - intros [[(L & Hi & r & Er)|(-> & H)]|(-> & E')].
                + split; [lia|]. eauto.
                + destruct (proj2 (HERE x id w) (or_introl H)) as [Hi Hr']. split; [pose proof (len_utf8_pos c); lia|]. auto.
                + injection E' as -> -> ->. destruct (proj2 (HERE [c] unk (unk_score A m))) as [Hi Hr']; [right; auto|]. split; [pose proof (len_utf8_pos c); lia|]. auto.
              - intros (L & Hi & r & Er). apply (STEP p' _ Er) in L. destruct L as [L| ->]; [left; left; eauto|].
                destruct (proj1 (HERE x id w)) as [H|(-> & _ & U & ->)]; [eauto|left; right; auto|]. right. injection U as <-. auto. }
            apply NEXT; [exact T3|split; [exact K3|exact K4]|].
            destruct (tb_best _ _ T3 p [c] unk (unk_score A m)) as (n & n' & _ & En & N & _).
            { split; [pose proof (len_utf8_pos c); lia|]. split; [right; exists c; auto|]. exists rest. exact Es. }
            rewrite blen_app in En. cbn in En. rewrite Nat.add_0_r in En. eauto.
          * unfold relax. assert (LK : blen p + len_utf8 c < length nodes1) by (rewrite (tb_len _ _ T1), Es, blen_app; cbn; lia).
            destruct (nth_error nodes1 (blen p + len_utf8 c)) as [target|] eqn:ET; [|apply nth_error_None in ET; lia]. cbn [of_option bind].
            destruct (bn_start target) as [st|] eqn:EST; [|right; cbn [bind]; repeat split; exists c; cbn; auto].
            destruct (a_gtb A _ _); cbn [bind]; [right; repeat split; exists c; cbn; auto|].
            apply NEXT; [|apply keeps_refl|exists target; split; [exact ET|congruence]].
            eapply table_ext; [exact T1|]. intros p' [[x id] w]. unfold done_to. cbn [fst snd]. split.
            -- intros [(L & Hi & r & Er)|(-> & H)].
               ++ split; [lia|]. eauto.
               ++ destruct (proj2 (HERE x id w) (or_introl H)) as [Hi Hr']. split; [pose proof (len_utf8_pos c); lia|]. auto.
            -- intros (L & Hi & r & Er). apply (STEP p' _ Er) in L. destruct L as [L| ->]; [left; eauto|right]. split; [reflexivity|].
               destruct (proj1 (HERE x id w)) as [H|(_ & _ & U & _)]; [eauto|exact H|discriminate].
    Qed.

    (** ** The best path *)
    Lemma total_snoc seg it : total A (seg ++ [it]) = a_add A (snd it) (total A seg).
    Proof. unfold total. rewrite fold_left_app. reflexivity. Qed.

    Lemma texts_snoc seg (it : str * N * W) : concat (texts (seg ++ [it])) = concat (texts seg) ++ fst (fst it).
    Proof. unfold texts. rewrite map_app, concat_app. cbn. rewrite app_nil_r. reflexivity. Qed.

    Lemma item_score_ok it : item_ok A m it -> ok (snd it).
    Proof. destruct it as [[x id] w]. intros [[_ LE]|(c & _ & _ & _ & ->)]; [apply (Hok x), (last_entry_in _ _ _ _ LE)|exact Hunk]. Qed.

    Lemma item_text_pos it : item_ok A m it -> fst (fst it) <> [].
    Proof. destruct it as [[x id] w]. intros [[N _]|(c & -> & _)]; [exact N|discriminate]. Qed.

    Lemma total_ok seg : Forall (item_ok A m) seg -> ok (total A seg).
    Proof.
      induction seg as [|it seg IH] using rev_ind; intros F; [apply (sl_zero _ _ HL)|]. rewrite total_snoc. apply Forall_app in F. destruct F as [F1 F2]. inversion F2; subst.
      apply (sl_add _ _ HL); [apply item_score_ok; assumption|apply IH; exact F1].
    Qed.

    Lemma refl_false a : ok a -> a_gtb A a a = false.
    Proof. intros O. destruct (a_gtb A a a) eqn:E; [|reflexivity]. pose proof (sl_total _ _ HL _ _ O O E). congruence. Qed.

    (** No segmentation of a prefix beats its node. *)
    Lemma node_bound nodes : table nodes (done_to (blen s)) -> forall seg q n, Forall (item_ok A m) seg -> s = concat (texts seg) ++ q ->
      nth_error nodes (blen (concat (texts seg))) = Some n -> a_gtb A (total A seg) (bn_score n) = false.
    Proof.
      intros T. induction seg as [|it seg IH] using rev_ind; intros q n F Es En.
      - cbn [texts map concat blen] in En. rewrite (tb_root _ _ T) in En. injection En as <-. cbn. apply refl_false, (sl_zero _ _ HL).
      - apply Forall_app in F. destruct F as [F1 F2]. inversion F2 as [|? ? Hi _]; subst. rewrite texts_snoc in Es, En. rewrite <- app_assoc in Es. rewrite total_snoc.
        destruct it as [[x id] w]. cbn [fst snd] in *. set (p' := concat (texts seg)) in *.
        assert (D : done_to (blen s) p' (x, id, w)).
        { split; [pose proof (item_text_pos _ Hi) as NX; cbn in NX; apply (blen_app_pos p') in NX; rewrite Es, app_assoc, blen_app; lia|]. split; [exact Hi|]. cbn. eauto. }
        destruct (tb_best _ _ T _ _ _ _ D) as (n2 & n' & E1 & E2 & _ & B). rewrite E2 in En. injection En as ->. specialize (IH _ _ F1 Es E1).
        pose proof (item_score_ok _ Hi) as OW. cbn in OW. pose proof (tb_ok _ _ T _ _ E1) as O1. pose proof (total_ok _ F1) as O2.
        eapply (sl_trans _ _ HL); [| | | |exact B]; [apply (sl_add _ _ HL); assumption|apply (sl_add _ _ HL); assumption|apply (tb_ok _ _ T _ _ E2)|].
        apply (sl_mono _ _ HL); assumption.
    Qed.

    (** The path that walking back follows. *)
    Inductive path (nodes : list (bnode W)) : str -> list (str * N * W) -> Prop :=
    | path_nil : path nodes [] []
    | path_snoc : forall p x n w seg, x <> [] -> nth_error nodes (blen (p ++ x)) = Some n -> bn_start n = Some (blen p) -> path nodes p seg ->
        path nodes (p ++ x) (seg ++ [(x, bn_id n, w)]).

    Lemma path_exists nodes : table nodes (done_to (blen s)) -> reached nodes (blen s) -> forall k p q n, blen p <= k -> s = p ++ q -> nth_error nodes (blen p) = Some n ->
      exists seg, path nodes p seg /\ Forall (item_ok A m) seg /\ concat (texts seg) = p /\ total A seg = bn_score n.
    Proof.
      intros T R. induction k as [|k IH]; intros p q n L Es En.
      - assert (p = []) by (apply blen_0; lia). subst p. cbn [blen] in En. rewrite (tb_root _ _ T) in En. injection En as <-. exists []. repeat split; constructor.
      - destruct (list_eq_dec N.eq_dec p []) as [->|NP].
        { cbn [blen] in En. rewrite (tb_root _ _ T) in En. injection En as <-. exists []. repeat split; constructor. }
        pose proof (tb_node _ _ T p q n Es NP En) as H. pose proof (R p q n Es NP ltac:(rewrite Es, blen_app; lia) En) as NS.
        destruct (bn_start n) as [st|] eqn:EST; [|congruence]. destruct H as (p' & x & w & n' & -> & NX & -> & D & En' & SC).
        pose proof (blen_app_pos p' x NX). rewrite <- app_assoc in Es. destruct (IH p' (x ++ q) n' ltac:(lia) Es En') as (seg & P & F & C & TT).
        exists (seg ++ [(x, bn_id n, w)]). split; [constructor; assumption|]. split; [apply Forall_app; split; [exact F|constructor; [apply D|constructor]]|].
        rewrite texts_snoc, total_snoc, C. cbn. rewrite TT, SC. auto.
    Qed.

    Definition mark (it : str * N * W) : str * bool := (fst (fst it), u_fuse m && is_unk m (snd (fst it))).

    Lemma back_path nodes p seg : path nodes p seg -> forall fuel q token results, length p < fuel -> s = p ++ q ->
      opt_back fuel m s nodes (blen p) token results = Ok (join_marked (map mark seg ++ map (fun x => (x, true)) (rev token)) ++ rev results).
    Proof.
      induction 1 as [|p x n w seg NX En ES P IH]; intros fuel q token results L Es; (destruct fuel as [|fuel]; [cbn in L; lia|]); cbn [opt_back].
      - cbn [blen]. cbn. f_equal. rewrite join_all_true. unfold flush. destruct token as [|t token]; [reflexivity|].
        cbn [is_nil]. rewrite rev_app_distr. destruct (rev (t :: token)) eqn:E; [|reflexivity]. apply (f_equal (@length _)) in E. rewrite rev_length in E. discriminate.
      - pose proof (blen_app_pos p x NX) as LP. replace (0 <? blen (p ++ x)) with true by (symmetry; apply Nat.ltb_lt; lia).
        rewrite En. cbn [of_option bind]. rewrite ES. cbn [of_option bind]. rewrite Es, <- app_assoc, blen_app, str_get_app. cbn [of_option bind].
        rewrite (app_assoc p x q), <- Es. rewrite map_app. cbn [map]. unfold mark at 2. cbn [fst snd].
        assert (LF : length p < fuel) by (rewrite app_length in L; destruct x; [congruence|cbn in L; lia]). assert (Es' : s = p ++ x ++ q) by (rewrite Es, <- app_assoc; reflexivity).
        destruct (u_fuse m && is_unk m (bn_id n)).
        + rewrite (IH fuel (x ++ q)) by assumption. rewrite rev_app_distr. cbn [rev app map]. rewrite <- app_assoc. reflexivity.
        + rewrite (IH fuel (x ++ q)) by assumption. cbn [rev map]. rewrite app_nil_r, <- app_assoc. cbn [app]. rewrite join_app_false, join_all_true, rev_app_distr. cbn [rev app]. rewrite <- app_assoc. f_equal. f_equal. cbn [app]. f_equal.
          unfold flush. destruct token as [|t token]; [reflexivity|]. cbn [is_nil]. rewrite rev_app_distr. destruct (rev (t :: token)) eqn:E; [|reflexivity]. apply (f_equal (@length _)) in E. rewrite rev_length in E. discriminate.
    Qed.

    Lemma table0 : table (repeat (bnode0 A) (S (blen s))) (done_to 0).
    Proof.
      constructor.
      - apply repeat_length.
      - intros i n E. apply nth_error_In, repeat_spec in E. subst n. apply (sl_zero _ _ HL).
      - intros p' x id w (L & _). lia.
      - reflexivity.
      - intros p q n _ _ E. apply nth_error_In, repeat_spec in E. subst n. exact I.
      - intros p' x id w (L & _). lia.
    Qed.

    Theorem encode_optimized_spec :
      (exists seg, encode_optimized A m s = Ok (pieces_of m seg) /\ best A m s seg) \/
      (encode_optimized A m s = Err EMissingUnkId /\ u_unk m = None /\ exists c, In c s /\ ~ In [c] (map fst (u_vocab m))).
    Proof.
      unfold encode_optimized. destruct (opt_loop_table s [] (repeat (bnode0 A) (S (blen s))) eq_refl table0) as [(nodes & E & T & R)|(E & H)].
      - intros p q n _ NP L. apply (blen_app_pos []) in NP. cbn in NP, L. lia.
      - left. cbn [blen] in E. rewrite E. cbn [bind]. destruct (nth_error nodes (blen s)) as [n|] eqn:En.
        2:{ apply nth_error_None in En. rewrite (tb_len _ _ T) in En. lia. }
        destruct (path_exists nodes T R (blen s) s [] n ltac:(lia) ltac:(rewrite app_nil_r; reflexivity) En) as (seg & P & F & C & TT). exists seg.
        split.
        + rewrite (back_path nodes s seg P (S (blen s)) [] [] []); [|enough (length s <= blen s) by lia; clear; induction s as [|a r IH]; cbn; [lia|]; pose proof (len_utf8_pos a); lia|rewrite app_nil_r; reflexivity].
          cbn [rev map]. rewrite !app_nil_r. reflexivity.
        + split; [split; assumption|]. intros seg' [F' C']. rewrite TT. eapply (node_bound nodes T seg' []); [exact F'|rewrite app_nil_r; congruence|rewrite C'; exact En].
      - right. cbn [blen] in E. rewrite E. cbn [bind]. auto.
    Qed.
  End sentence.
End proofs.
