(** C44: the prefix trie. *)
From Coq Require Import Sorted.
From Verif Require Import Base ListFacts AMap TrieModel.

(** The node reached along a path is a leaf. *)
Fixpoint t_mem (n : tnode) (p : list N) : bool :=
  match p with
  | [] => t_leaf n
  | l :: p' => match aget N.eqb l (t_children n) with Some c => t_mem c p' | None => false end
  end.

Lemma t_mem_empty p : t_mem tnode0 p = false.
Proof. destruct p; reflexivity. Qed.

Lemma t_mem_push e : forall n p, t_mem (trie_push n e) p = true <-> p = e \/ t_mem n p = true.
Proof.
  induction e as [|l e IH]; intros n p.
  - destruct p as [|x p]; cbn.
    + tauto.
    + split; [auto|]. intros [H|H]; [discriminate|exact H].
  - destruct p as [|x p]; cbn [t_mem trie_push t_leaf t_children].
    + split; [auto|]. intros [H|H]; [discriminate|exact H].
    + rewrite (aget_aset N.eqb N.eqb_eq). destruct (N.eqb_spec x l) as [->|N].
      * rewrite IH. destruct (aget N.eqb l (t_children n)) as [c|].
        -- split; (intros [H|H]; [left|right; exact H]); congruence.
        -- rewrite t_mem_empty. split; (intros [H|H]; [left; congruence|discriminate]).
      * split; [auto|]. intros [H|H]; [congruence|exact H].
Qed.

Lemma t_mem_of es : forall n p, t_mem (fold_left trie_push es n) p = true <-> In p es \/ t_mem n p = true.
Proof.
  induction es as [|e es IH]; intros n p; cbn [fold_left In]; [tauto|]. rewrite IH, t_mem_push. split; [intros [H|[H|H]]|intros [[H|H]|H]]; auto.
Qed.

Lemma trie_search_spec it : forall n prefix x, In x (trie_search n prefix it) <-> exists p q, x = prefix ++ p /\ it = p ++ q /\ p <> [] /\ t_mem n p = true.
Proof.
  induction it as [|l it IH]; intros n prefix x; cbn [trie_search].
  - split; [intros []|]. intros (p & q & _ & E & N & _). destruct p; [congruence|discriminate].
  - assert (D : (exists p q, x = prefix ++ p /\ l :: it = p ++ q /\ p <> [] /\ t_mem n p = true) <->
                exists c, aget N.eqb l (t_children n) = Some c /\ (x = prefix ++ [l] /\ t_leaf c = true \/ exists p q, x = (prefix ++ [l]) ++ p /\ it = p ++ q /\ p <> [] /\ t_mem c p = true)).
    { split.
      - intros (p & q & -> & E & N & M). destruct p as [|l' p]; [congruence|]. cbn in E. injection E as <- ->. cbn in M. destruct (aget N.eqb l (t_children n)) as [c|]; [|discriminate].
        exists c. split; [reflexivity|]. destruct p as [|y p]; [left; auto|]. right. exists (y :: p), q. rewrite <- app_assoc. repeat split; [discriminate|exact M].
      - intros (c & E & [[-> L]|(p & q & -> & -> & N & M)]).
        + exists [l], it. cbn. rewrite E. repeat split; [discriminate|exact L].
        + exists (l :: p), q. cbn. rewrite E, <- app_assoc. repeat split; [discriminate|exact M]. }
    rewrite D. destruct (aget N.eqb l (t_children n)) as [c|].
    + destruct (t_leaf c) eqn:L; cbn [In]; rewrite IH.
      * split; [intros [<-|H]; exists c; auto|]. intros (c' & E & [[-> _]|H]); injection E as <-; auto.
      * split; [intros H; exists c; auto|]. intros (c' & E & [[-> X]|H]); injection E as <-; [congruence|auto].
    + split; [intros []|]. intros (c & E & _). discriminate.
Qed.

Lemma trie_search_sorted it : forall n prefix, StronglySorted (fun a b => length a < length b) (trie_search n prefix it).
Proof.
  induction it as [|l it IH]; intros n prefix; cbn [trie_search]; [constructor|]. destruct (aget N.eqb l (t_children n)) as [c|]; [|constructor].
  destruct (t_leaf c); [|apply IH]. constructor; [apply IH|]. apply Forall_forall. intros x H. apply trie_search_spec in H. destruct H as (p & q & -> & _ & N & _).
  rewrite (app_length (prefix ++ [l]) p). destruct p; [congruence|cbn; lia].
Qed.

(** The search yields the non-empty inserted strings that are prefixes of the query, ... *)
Theorem C44_exact : forall elements s p,
  In p (common_prefix_search (trie_of elements) s) <-> In p elements /\ p <> [] /\ exists q, s = p ++ q.
Proof.
  intros elements s p. unfold common_prefix_search, trie_of. rewrite trie_search_spec. split.
  - intros (p' & q & -> & E & N & M). cbn [app]. apply t_mem_of in M. destruct M as [M|M]; [|rewrite t_mem_empty in M; discriminate]. eauto.
  - intros (H & N & q & E). exists p, q. repeat split; auto. apply t_mem_of. auto.
Qed.

(** ... each once and in increasing length. *)
Theorem C44_increasing : forall elements s,
  StronglySorted (fun a b => length a < length b) (common_prefix_search (trie_of elements) s) /\ NoDup (common_prefix_search (trie_of elements) s).
Proof.
  intros elements s. assert (S := trie_search_sorted s (trie_of elements) []). split; [exact S|]. unfold common_prefix_search.
  induction S as [|a l S IH F]; constructor; [|exact IH]. intros H. rewrite Forall_forall in F. specialize (F a H). lia.
Qed.

Example C44_ex : common_prefix_search (trie_of [[1; 2]; [1]; []; [1; 2; 3; 4]; [2]; [1; 2]]%N) [1; 2; 3; 5]%N = [[1]; [1; 2]]%N.
Proof. reflexivity. Qed.
