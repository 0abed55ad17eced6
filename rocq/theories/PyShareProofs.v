(** Proofs for C88. *)
From Verif Require Import Base PyShareModel PyShareSpec.

Section lists.
  Context {T : Type}.
  Definition change (l : list T) (i : nat) (x : T) : list T := firstn i l ++ match skipn i l with [] => [] | _ :: r => x :: r end.
  Lemma change_len l i x : List.length (change l i x) = List.length l.
  Proof. revert i. induction l as [|y l IH]; intros [|i]; try reflexivity. unfold change in *. cbn. f_equal. apply IH. Qed.
  Lemma change_same l i x : i < List.length l -> nth_error (change l i x) i = Some x.
  Proof. revert i. induction l as [|y l IH]; intros [|i] H; cbn in *; try lia; [reflexivity|]. unfold change in *. cbn. apply IH. lia. Qed.
  Lemma change_other l i j x : i <> j -> nth_error (change l i x) j = nth_error l j.
  Proof.
    revert i j. induction l as [|y l IH]; intros [|i] [|j] H; try reflexivity; try congruence. unfold change in *. cbn. apply IH. congruence.
  Qed.
  Lemma nth_app (l l' : list T) i x : nth_error l i = Some x -> nth_error (l ++ l') i = Some x.
  Proof. intros H. rewrite nth_error_app1; [exact H|]. apply nth_error_Some. congruence. Qed.
  Lemma nth_lt (l : list T) i x : nth_error l i = Some x -> i < List.length l.
  Proof. intros H. apply nth_error_Some. congruence. Qed.
  Lemma nth_last (l : list T) x : nth_error (l ++ [x]) (List.length l) = Some x.
  Proof. rewrite nth_error_app2 by lia. rewrite Nat.sub_diag. reflexivity. Qed.
End lists.

Section frame.
  Context {A C : Type}.
  Variable lone : bool.
  Notation step := (@step A C lone).
  Notation run := (@run A C lone).
  Implicit Types (w : world A C) (c : op A C) (h : list (value A C)).

  Definition inside (n : nat) (l : list nat) : Prop := Forall (fun a => a < n) l.
  Definition sound w : Prop :=
    (forall o b, nth_error (objs w) o = Some b -> inside (List.length (cells w)) (cells_of (ob_comp b))) /\
    (forall t k, nth_error (toks w) t = Some (Some k) -> inside (List.length (cells w)) (cells_of k)).
  Lemma inside_le n m l : n <= m -> inside n l -> inside m l.
  Proof. intros L. apply Forall_impl. intros; lia. Qed.

  Lemma members_inside w l m : sound w -> members (objs w) l = Some m -> inside (List.length (cells w)) m.
  Proof.
    intros [S _]. revert m. induction l as [|o l IH]; intros m H; cbn [members] in H; [injection H as <-; constructor|].
    destruct (nth_error (objs w) o) as [b|] eqn:B; [|discriminate]. destruct (members (objs w) l) as [r|] eqn:R; [|discriminate]. injection H as <-.
    apply Forall_app. split; [exact (S _ _ B)|apply IH; reflexivity].
  Qed.
  Lemma load_facts h v h' k : load h v = (h', k) ->
    exists l, h' = h ++ l /\ cells_of k = seq (List.length h) (List.length l).
  Proof. intros H. destruct v; cbn [load] in H; injection H as <- <-; eexists; (split; [reflexivity|]); reflexivity. Qed.
  Lemma subtype_comp h k b : subtype h k = Some b -> ob_comp b = k.
  Proof. destruct k; cbn [subtype]; [destruct (nth_error h a) as [v|]; [|discriminate]|]; intros H; injection H as <-; reflexivity. Qed.

  (** Everything that a call leaves as it is, and the parts of what it makes. *)
  Record facts w c w' : Prop := {
    f_sound : sound w';
    f_objs : exists l, objs w' = objs w ++ l;
    f_toks : forall t, t < List.length (toks w) -> (forall o, c <> OAssign t o) -> nth_error (toks w') t = nth_error (toks w) t;
    f_len : List.length (cells w) <= List.length (cells w');
    f_tlen : List.length (toks w) <= List.length (toks w');
    f_cells : forall a, a < List.length (cells w) -> ~ changes w c a -> nth_error (cells w') a = nth_error (cells w) a }.
  Lemma facts_same w c : sound w -> facts w c w.
  Proof. intros S. constructor; try tauto; try reflexivity. exists []. symmetry. apply app_nil_r. Qed.
  Lemma facts_obj w c l b : sound w -> inside (List.length (cells w) + List.length l) (cells_of (ob_comp b)) -> facts w c (mkWorld (cells w ++ l) (objs w ++ [b]) (toks w)).
  Proof.
    intros [S T] I. constructor; cbn [cells objs toks].
    - split; cbn [cells objs toks]; rewrite app_length.
      + intros o b' H. destruct (Nat.lt_ge_cases o (List.length (objs w))) as [L|L].
        * rewrite nth_error_app1 in H by exact L. apply (inside_le (List.length (cells w))); [lia|exact (S _ _ H)].
        * rewrite nth_error_app2 in H by exact L. destruct (o - List.length (objs w)) as [|n]; [|destruct n; discriminate]. injection H as <-. exact I.
      + intros t k H. apply (inside_le (List.length (cells w))); [lia|exact (T _ _ H)].
    - exists [b]. reflexivity.
    - reflexivity.
    - rewrite app_length. lia.
    - lia.
    - intros a H _. apply nth_error_app1. exact H.
  Qed.
  Lemma facts_obj0 w c b : sound w -> inside (List.length (cells w)) (cells_of (ob_comp b)) -> facts w c (mkWorld (cells w) (objs w ++ [b]) (toks w)).
  Proof. intros S I. pose proof (facts_obj w c [] b S) as F. rewrite app_nil_r in F. apply F. rewrite Nat.add_0_r. exact I. Qed.
  Lemma facts_put w c a v : sound w -> (forall a', a' <> a \/ changes w c a') -> (forall t o, c <> OAssign t o) -> facts w c (mkWorld (put (cells w) a v) (objs w) (toks w)).
  Proof.
    intros [S T] CH NA. change (put (cells w) a v) with (change (cells w) a v). constructor; cbn [cells objs toks]; rewrite ?change_len; try lia.
    - split; cbn [cells objs toks]; rewrite change_len; assumption.
    - exists []. symmetry. apply app_nil_r.
    - reflexivity.
    - intros a' _ N. destruct (CH a') as [D|D]; [|contradiction]. apply change_other. congruence.
  Qed.
  Lemma facts_tok w c l k : sound w -> match k with Some k => inside (List.length (cells w) + List.length l) (cells_of k) | None => True end ->
    facts w c (mkWorld (cells w ++ l) (objs w) (toks w ++ [k])).
  Proof.
    intros [S T] I. constructor; cbn [cells objs toks].
    - split; cbn [cells objs toks]; rewrite app_length.
      + intros o b' H. apply (inside_le (List.length (cells w))); [lia|exact (S _ _ H)].
      + intros t k' H. destruct (Nat.lt_ge_cases t (List.length (toks w))) as [L|L].
        * rewrite nth_error_app1 in H by exact L. apply (inside_le (List.length (cells w))); [lia|exact (T _ _ H)].
        * rewrite nth_error_app2 in H by exact L. destruct (t - List.length (toks w)) as [|n]; [|destruct n; discriminate]. injection H as ->. exact I.
    - exists []. symmetry. apply app_nil_r.
    - intros t L _. apply nth_error_app1. exact L.
    - rewrite app_length. lia.
    - rewrite app_length. lia.
    - intros a H _. apply nth_error_app1. exact H.
  Qed.
  Lemma facts_assign w t o k : sound w -> t < List.length (toks w) -> match k with Some k => inside (List.length (cells w)) (cells_of k) | None => True end ->
    facts w (OAssign t o) (mkWorld (cells w) (objs w) (set_tok (toks w) t k)).
  Proof.
    intros [S T] L I. change (set_tok (toks w) t k) with (change (toks w) t k). constructor; cbn [cells objs toks]; try lia.
    - split; cbn [cells objs toks]; [exact S|]. intros u k' H. destruct (Nat.eq_dec t u) as [<-|D].
      + rewrite change_same in H by exact L. injection H as ->. exact I.
      + rewrite change_other in H by exact D. exact (T _ _ H).
    - exists []. symmetry. apply app_nil_r.
    - intros u _ N. apply change_other. intros ->. exact (N o eq_refl).
    - rewrite change_len. lia.
    - reflexivity.
  Qed.
  Lemma inside_seq n m : inside (n + m) (seq n m).
  Proof. apply Forall_forall. intros a H. apply in_seq in H. lia. Qed.

  Lemma step_facts w c w' e : sound w -> step w c = (w', e) -> facts w c w'.
  Proof.
    intros S H. assert (SAME := facts_same w c S). destruct c; cbn [PyShareModel.step] in H; unfold add_obj in H.
    - injection H as <- _. apply facts_obj; [exact S|]. repeat constructor. cbn. lia.
    - injection H as <- _. apply facts_obj; [exact S|]. repeat constructor. cbn. lia.
    - destruct (members (objs w) l) as [m|] eqn:M; injection H as <- _; [|exact SAME]. apply facts_obj0; [exact S|]. exact (members_inside _ _ _ S M).
    - destruct (nth_error (objs w) o) as [[[| |] [a|l]]|] eqn:O; try (injection H as <- _; exact SAME).
      + destruct lone; [|injection H as <- _; exact SAME].
        destruct (subtype (cells w) (One a)) as [b|] eqn:B; injection H as <- _; [|exact SAME]. apply facts_obj0; [exact S|]. rewrite (subtype_comp _ _ _ B). exact (proj1 S _ _ O).
      + destruct (nth_error l i) as [a|] eqn:I; [|injection H as <- _; exact SAME].
        destruct (subtype (cells w) (One a)) as [b|] eqn:B; injection H as <- _; [|exact SAME]. apply facts_obj0; [exact S|]. rewrite (subtype_comp _ _ _ B).
        pose proof (proj1 S _ _ O) as F. cbn in F. unfold inside in F. rewrite Forall_forall in F. repeat constructor. exact (F _ (nth_error_In _ _ I)).
    - destruct (nth_error (objs w) p) as [[k [b|l]]|]; try (injection H as <- _; exact SAME).
      destruct (nth_error (objs w) o) as [[[| |] [a|l]]|] eqn:O; try (injection H as <- _; exact SAME).
      destruct (nth_error l i) as [a|] eqn:I; [|injection H as <- _; exact SAME]. destruct (Nat.eqb a b); [injection H as <- _; exact SAME|].
      destruct (nth_error (cells w) b) as [v|]; injection H as <- _; [|exact SAME]. apply facts_put; [exact S| |discriminate].
      intros a'. destruct (Nat.eq_dec a' a) as [->|D]; [right|left; exact D]. cbn [changes]. unfold obj_parts. rewrite O. exact I.
    - destruct (nth_error (objs w) o) as [[[| |] [a|l]]|] eqn:O; try (injection H as <- _; exact SAME).
      destruct (nth_error (cells w) a) as [[k' x| |]|]; try (injection H as <- _; exact SAME). destruct (Nat.eqb k k'); injection H as <- _; [|exact SAME].
      apply facts_put; [exact S| |discriminate]. intros a'. destruct (Nat.eq_dec a' a) as [->|D]; [right|left; exact D]. cbn [changes]. unfold obj_parts. rewrite O. reflexivity.
    - destruct (load (cells w) v) as [h' k] eqn:L. destruct (load_facts _ _ _ _ L) as (l & -> & K). destruct (subtype (cells w ++ l) k) as [b|] eqn:B; injection H as <- _; [|exact SAME].
      apply facts_obj; [exact S|]. rewrite (subtype_comp _ _ _ B), K. apply inside_seq.
    - destruct (nth_error (objs w) o) as [b|] eqn:O; [|injection H as <- _; exact SAME]. destruct (document (cells w) (ob_comp b)) as [v|]; [|injection H as <- _; exact SAME].
      destruct (load (cells w) v) as [h' k] eqn:L. destruct (load_facts _ _ _ _ L) as (l & -> & K). injection H as <- _. apply facts_obj; [exact S|]. cbn [ob_comp]. rewrite K. apply inside_seq.
    - injection H as <- _. pose proof (facts_tok w OTok [] None S Logic.I) as F. rewrite app_nil_r in F. exact F.
    - destruct o as [o|].
      + destruct (nth_error (toks w) t) as [k|] eqn:T; [|injection H as <- _; exact SAME]. destruct (nth_error (objs w) o) as [b|] eqn:O; injection H as <- _; [|exact SAME].
        apply facts_assign; [exact S|exact (nth_lt _ _ _ T)|exact (proj1 S _ _ O)].
      + destruct (nth_error (toks w) t) as [k|] eqn:T; injection H as <- _; [|exact SAME]. apply facts_assign; [exact S|exact (nth_lt _ _ _ T)|exact Logic.I].
    - destruct (nth_error (toks w) t) as [[k|]|] eqn:T; try (injection H as <- _; exact SAME).
      destruct (subtype (cells w) k) as [b|] eqn:B; injection H as <- _; [|exact SAME]. apply facts_obj0; [exact S|]. rewrite (subtype_comp _ _ _ B). exact (proj2 S _ _ T).
    - destruct (nth_error (toks w) t) as [[k|]|] eqn:T; try (injection H as <- _; exact SAME).
      + destruct (document (cells w) k) as [v|]; [|injection H as <- _; exact SAME].
        destruct (load (cells w) v) as [h' k'] eqn:L. destruct (load_facts _ _ _ _ L) as (l & -> & K). injection H as <- _. apply facts_tok; [exact S|]. rewrite K. apply inside_seq.
      + injection H as <- _. pose proof (facts_tok w (OCopyTok t) [] None S Logic.I) as F. rewrite app_nil_r in F. exact F.
  Qed.

  Lemma run_ind (P : world A C -> Prop) cs : (forall w c w' e, In c cs -> P w -> step w c = (w', e) -> e <> Hung -> P w') -> forall w w', P w -> run w cs = Some w' -> P w'.
  Proof.
    induction cs as [|c cs IH]; intros K w w' H R; cbn [PyShareModel.run] in R; [injection R as <-; exact H|].
    destruct (step w c) as [w1 e] eqn:St. assert (P w1 /\ run w1 cs = Some w') as [P1 R1].
    { assert (e <> Hung) by (intros ->; discriminate). split; [exact (K _ _ _ _ (or_introl eq_refl) H St H0)|]. destruct e; congruence. }
    apply (IH (fun w c w' e I => K w c w' e (or_intror I)) _ _ P1 R1).
  Qed.
  Lemma sound_nothing : sound nothing.
  Proof. split; intros [|i] x H; discriminate. Qed.
  Lemma run_sound w cs w' : sound w -> run w cs = Some w' -> sound w'.
  Proof. intros S R. refine (run_ind sound cs _ w w' S R). intros w1 c w2 e _ S1 H _. exact (f_sound _ _ _ (step_facts _ _ _ _ S1 H)). Qed.
  Lemma reachable_sound w : reachable lone w -> sound w.
  Proof. intros [cs R]. exact (run_sound _ _ _ sound_nothing R). Qed.
  Lemma run_app w cs1 cs2 : run w (cs1 ++ cs2) = match run w cs1 with Some w' => run w' cs2 | None => None end.
  Proof. revert w. induction cs1 as [|c cs1 IH]; intros w; [reflexivity|]. cbn [app PyShareModel.run]. destruct (step w c) as [w1 [| |]]; try apply IH. reflexivity. Qed.
  Lemma reachable_step w c w' e : reachable lone w -> step w c = (w', e) -> e <> Hung -> reachable lone w'.
  Proof. intros [cs R] H N. exists (cs ++ [c]). rewrite run_app, R. cbn [PyShareModel.run]. rewrite H. destruct e; congruence. Qed.

  (** Objects stay what they are. *)
  Lemma obj_stays w cs w' o b : sound w -> run w cs = Some w' -> nth_error (objs w) o = Some b -> nth_error (objs w') o = Some b.
  Proof.
    intros S R H. refine (proj2 (run_ind (fun w => sound w /\ nth_error (objs w) o = Some b) cs _ w w' (conj S H) R)).
    intros w1 c w2 e _ [S1 H1] St _. pose proof (step_facts _ _ _ _ S1 St) as F. split; [exact (f_sound _ _ _ F)|]. destruct (f_objs _ _ _ F) as [l ->]. apply nth_app. exact H1.
  Qed.
  Lemma tok_stays w cs w' t k : sound w -> no_assign t cs -> run w cs = Some w' -> nth_error (toks w) t = Some k -> nth_error (toks w') t = Some k.
  Proof.
    intros S N R H. refine (proj2 (run_ind (fun w => sound w /\ nth_error (toks w) t = Some k) cs _ w w' (conj S H) R)).
    intros w1 c w2 e I [S1 H1] St _. pose proof (step_facts _ _ _ _ S1 St) as F. split; [exact (f_sound _ _ _ F)|]. rewrite (f_toks _ _ _ F); [exact H1|exact (nth_lt _ _ _ H1)|].
    intros o ->. exact (N o I).
  Qed.

End frame.

Section uses.
  Context {A C X E : Type}.
  Variables (act : nat -> A -> X -> res E X) (call : C -> X -> res E X).
  Notation apply_cell := (apply_cell act call).
  Notation apply_cells := (apply_cells act call).
  Notation use_obj := (use_obj act call).
  Implicit Types (w : world A C) (h : list (value A C)).
  (** What objects do is what their parts do. *)
  Lemma apply_cells_composed w l x : apply_cells (cells w) l x = composed (map (part_use act call w) l) x.
  Proof. revert x. induction l as [|a l IH]; intros x; [reflexivity|]. cbn [PyShareModel.apply_cells map composed]. unfold part_use at 1. destruct (apply_cell (cells w) a x); [apply IH|reflexivity|reflexivity]. Qed.
  Lemma bind_ok (r : res E X) : (let! y := r in Ok y) = r.
  Proof. destruct r; reflexivity. Qed.
  Lemma comp_composed w k x : apply_comp act call (cells w) k x = composed (map (part_use act call w) (cells_of k)) x.
  Proof. destruct k as [a|l]; [|apply apply_cells_composed]. cbn [apply_comp cells_of map composed]. symmetry. apply bind_ok. Qed.
  Lemma composed_app (fs gs : list (X -> res E X)) x : composed (fs ++ gs) x = let! y := composed fs x in composed gs y.
  Proof. revert x. induction fs as [|f fs IH]; intros x; [reflexivity|]. cbn [app composed]. destruct (f x); cbn [bind]; [apply IH|reflexivity|reflexivity]. Qed.
  Lemma obj_composed w o x : is_obj w o -> use_obj w o x = composed (map (part_use act call w) (obj_parts w o)) x.
  Proof. intros H. unfold PyShareModel.use_obj, obj_parts. destruct (nth_error (objs w) o) as [b|] eqn:B; [apply comp_composed|]. apply nth_error_None in B. unfold is_obj in H. lia. Qed.
  Lemma composed_ext (fs gs : list (X -> res E X)) x : Forall2 (fun f g => forall x, f x = g x) fs gs -> composed fs x = composed gs x.
  Proof. intros F. revert x. induction F as [|f g fs gs H F IH]; intros x; [reflexivity|]. cbn [composed]. rewrite H. destruct (g x); cbn [bind]; [apply IH|reflexivity|reflexivity]. Qed.
  Lemma part_use_eq w w' a : nth_error (cells w') a = nth_error (cells w) a -> forall x, part_use act call w' a x = part_use act call w a x.
  Proof. intros H x. unfold part_use, PyShareModel.apply_cell. rewrite H. reflexivity. Qed.
  Lemma composed_parts w w' l x : (forall a, In a l -> nth_error (cells w') a = nth_error (cells w) a) ->
    composed (map (part_use act call w') l) x = composed (map (part_use act call w) l) x.
  Proof.
    intros H. apply composed_ext. induction l as [|a l IH]; [constructor|]. constructor.
    - apply part_use_eq. apply H. left. reflexivity.
    - apply IH. intros a' I. apply H. right. exact I.
  Qed.

  Lemma members_composed w l m x : members (objs w) l = Some m -> composed (map (part_use act call w) m) x = composed (map (use_obj w) l) x.
  Proof.
    revert m x. induction l as [|o l IH]; intros m x H; cbn [members] in H; [injection H as <-; reflexivity|].
    destruct (nth_error (objs w) o) as [b|] eqn:B; [|discriminate]. destruct (members (objs w) l) as [r|] eqn:R; [|discriminate]. injection H as <-.
    rewrite map_app, composed_app. cbn [map composed]. rewrite <- comp_composed. unfold PyShareModel.use_obj at 1. rewrite B.
    destruct (apply_comp act call (cells w) (ob_comp b) x); cbn [bind]; [apply IH; reflexivity|reflexivity|reflexivity].
  Qed.
  Lemma members_stays (os os' : list object) l m : members os l = Some m -> (forall o b, nth_error os o = Some b -> nth_error os' o = Some b) -> members os' l = Some m.
  Proof.
    intros H K. revert m H. induction l as [|o l IH]; intros m H; cbn [members] in *; [exact H|].
    destruct (nth_error os o) as [b|] eqn:B; [|discriminate]. destruct (members os l) as [r|]; [|discriminate]. rewrite (K _ _ B), (IH _ eq_refl). exact H.
  Qed.

  (** ** Copies *)
  Lemma nest_composed l x : apply act call (Nest l) x = composed (map (apply act call) l) x.
  Proof. revert x. induction l as [|v l IH]; intros x; [reflexivity|]. cbn [map composed]. rewrite <- (bind_ok (let! y := _ in _)). cbn [apply]. destruct (apply act call v x) as [y| |]; cbn [bind]; [|reflexivity|reflexivity]. rewrite <- IH, bind_ok. reflexivity. Qed.
  Lemma loaded_composed l h x : apply_cells (h ++ l) (seq (List.length h) (List.length l)) x = composed (map (apply act call) l) x.
  Proof.
    revert h x. induction l as [|v l IH]; intros h x; [reflexivity|]. cbn [List.length seq PyShareModel.apply_cells map composed]. unfold PyShareModel.apply_cell.
    rewrite nth_error_app2, Nat.sub_diag by lia. cbn [nth_error]. destruct (apply act call v x) as [y| |]; cbn [bind]; [|reflexivity|reflexivity].
    rewrite <- (IH (h ++ [v])), <- app_assoc, app_length. cbn [app List.length]. rewrite Nat.add_1_r. reflexivity.
  Qed.
  Lemma contents_composed h l vs x : contents h l = Some vs -> apply_cells h l x = composed (map (apply act call) vs) x.
  Proof.
    revert vs x. induction l as [|a l IH]; intros vs x H; cbn [contents] in H; [injection H as <-; reflexivity|].
    destruct (nth_error h a) as [v|] eqn:V; [|discriminate]. destruct (contents h l) as [r|]; [|discriminate]. injection H as <-.
    cbn [PyShareModel.apply_cells map composed]. unfold PyShareModel.apply_cell. rewrite V. destruct (apply act call v x); cbn [bind]; [apply IH; reflexivity|reflexivity|reflexivity].
  Qed.
  Lemma load_apply h v h' k x : load h v = (h', k) -> apply_comp act call h' k x = apply act call v x.
  Proof.
    intros H. destruct v as [n a|d|l]; cbn [load] in H; injection H as <- <-; cbn [apply_comp].
    - unfold PyShareModel.apply_cell. rewrite nth_last. reflexivity.
    - unfold PyShareModel.apply_cell. rewrite nth_last. reflexivity.
    - rewrite loaded_composed. symmetry. apply nest_composed.
  Qed.
  Lemma document_apply h k v x : document h k = Some v -> apply act call v x = apply_comp act call h k x.
  Proof.
    intros H. destruct k as [a|l]; cbn [document] in H; cbn [apply_comp].
    - unfold PyShareModel.apply_cell. destruct (nth_error h a) as [u|]; [|discriminate]. destruct (saves u); [|discriminate]. injection H as ->. reflexivity.
    - destruct (contents h l) as [vs|] eqn:V; [|discriminate]. destruct (forallb saves vs); [|discriminate]. injection H as <-. rewrite nest_composed. symmetry. apply contents_composed. exact V.
  Qed.

End uses.

Section rest.
  Context {A C : Type}.
  Variable lone : bool.
  Notation step := (@step A C lone).
  Notation run := (@run A C lone).
  Implicit Types (w : world A C) (c : op A C) (h : list (value A C)).
  Definition value_nest (P : value A C -> Prop) (fp : forall k a, P (Plain k a)) (fc : forall d, P (Custom d)) (fn : forall l, Forall P l -> P (Nest l)) : forall v, P v :=
    fix F v := match v with
               | Plain k a => fp k a
               | Custom d => fc d
               | Nest l => fn l ((fix G l : Forall P l := match l with [] => Forall_nil P | v :: l' => Forall_cons v (F v) (G l') end) l)
               end.
  Lemma saves_nest (l : list (value A C)) : saves (Nest l) = forallb saves l.
  Proof. induction l as [|v l IH]; [reflexivity|]. cbn [forallb]. rewrite <- IH. reflexivity. Qed.
  Lemma saves_custom (v : value A C) : saves v = false <-> has_custom v.
  Proof.
    induction v as [k a|d|l IH] using value_nest.
    - split; [discriminate|inversion 1].
    - split; [constructor|reflexivity].
    - rewrite saves_nest. split.
      + intros H. induction IH as [|v l V IH IHl]; [discriminate|]. cbn [forallb] in H. apply andb_false_iff in H as [H|H].
        * apply (hc_in v); [left; reflexivity|apply V; exact H].
        * specialize (IHl H). inversion IHl as [|u l' I U]; subst. apply (hc_in u); [right; exact I|exact U].
      + intros H. inversion H as [|v l' I V]; subst. rewrite Forall_forall in IH. apply (IH _ I) in V. destruct (forallb saves l) eqn:F; [|reflexivity]. rewrite forallb_forall in F. rewrite (F _ I) in V. discriminate.
  Qed.
  Lemma contents_ok h l : inside (List.length h) l -> exists vs, contents h l = Some vs.
  Proof.
    induction 1 as [|a l L _ [vs IH]]; [exists []; reflexivity|]. cbn [contents]. rewrite IH. destruct (nth_error h a) as [v|] eqn:V; [eexists; reflexivity|]. apply nth_error_None in V. lia.
  Qed.
  Lemma contents_in h l vs v : contents h l = Some vs -> (In v vs <-> exists a, In a l /\ nth_error h a = Some v).
  Proof.
    revert vs. induction l as [|a l IH]; intros vs H; cbn [contents] in H.
    - injection H as <-. split; [contradiction|]. intros (a & [] & _).
    - destruct (nth_error h a) as [u|] eqn:U; [|discriminate]. destruct (contents h l) as [r|]; [|discriminate]. injection H as <-. split.
      + intros [<-|I]; [exists a; split; [left; reflexivity|exact U]|]. apply (IH _ eq_refl) in I. destruct I as (b & I & B). exists b. split; [right; exact I|exact B].
      + intros (b & [<-|I] & B); [left; congruence|]. right. apply (IH _ eq_refl). exists b. split; assumption.
  Qed.
  Lemma document_none h k : inside (List.length h) (cells_of k) -> (document h k = None <-> exists a v, In a (cells_of k) /\ nth_error h a = Some v /\ has_custom v).
  Proof.
    intros I. destruct k as [a|l]; cbn [document cells_of] in *.
    - inversion I as [|? ? L _]; subst. destruct (nth_error h a) as [v|] eqn:V; [|apply nth_error_None in V; lia]. split.
      + intros H. exists a, v. split; [left; reflexivity|]. split; [exact V|]. apply saves_custom. destruct (saves v); [discriminate|reflexivity].
      + intros (b & u & [<-|[]] & U & K). apply saves_custom in K. assert (u = v) by congruence. subst u. rewrite K. reflexivity.
    - destruct (contents_ok _ _ I) as [vs V]. rewrite V. split.
      + intros H. destruct (forallb saves vs) eqn:F; [discriminate|]. assert (N : has_custom (Nest vs)) by (apply saves_custom; rewrite saves_nest; exact F).
        inversion N as [|u l' U K]; subst. apply (contents_in _ _ _ _ V) in U. destruct U as (a & J & U). exists a, u. tauto.
      + intros (a & v & J & U & K). assert (N : has_custom (Nest vs)) by (apply (hc_in v); [apply (contents_in _ _ _ _ V); exists a; tauto|exact K]).
        apply saves_custom in N. rewrite saves_nest in N. rewrite N. reflexivity.
  Qed.

  (** ** Classes *)
  Definition kinds w : Prop := forall o k d, nth_error (objs w) o = Some (mkObj (ClKind k) d) -> exists a x, d = One a /\ nth_error (cells w) a = Some (Plain k x).
  Lemma kinds_add w l b : kinds w -> (forall k, ob_class b = ClKind k -> exists a x, ob_comp b = One a /\ nth_error (cells w ++ l) a = Some (Plain k x)) -> kinds (mkWorld (cells w ++ l) (objs w ++ [b]) (toks w)).
  Proof.
    intros K B o k d H. cbn [objs cells] in *. destruct (Nat.lt_ge_cases o (List.length (objs w))) as [L|L].
    - rewrite nth_error_app1 in H by exact L. destruct (K _ _ _ H) as (a & x & -> & N). exists a, x. split; [reflexivity|]. apply nth_app. exact N.
    - rewrite nth_error_app2 in H by exact L. destruct (o - List.length (objs w)) as [|n]; [|destruct n; discriminate]. cbn [nth_error] in H. assert (b = mkObj (ClKind k) d) by congruence. subst b. apply B. reflexivity.
  Qed.
  Lemma subtype_kind h k b n : subtype h k = Some b -> ob_class b = ClKind n -> exists a x, ob_comp b = One a /\ nth_error h a = Some (Plain n x).
  Proof.
    destruct k as [a|l]; cbn [subtype]; [|intros H; injection H as <-; discriminate]. destruct (nth_error h a) as [[m x|d|l]|] eqn:V; intros H; try discriminate; injection H as <-; cbn [ob_class ob_comp class_of]; try discriminate.
    intros H. assert (m = n) by congruence. subst m. exists a, x. split; [reflexivity|exact V].
  Qed.
  Lemma kinds_step w c w' e : sound w -> kinds w -> (forall o i p, c <> OSetItem o i p) -> step w c = (w', e) -> kinds w'.
  Proof.
    intros S K NS H. assert (ADD0 : forall b, (forall k, ob_class b = ClKind k -> exists a x, ob_comp b = One a /\ nth_error (cells w) a = Some (Plain k x)) -> kinds (mkWorld (cells w) (objs w ++ [b]) (toks w))).
    { intros b B. pose proof (kinds_add w [] b K) as F. rewrite app_nil_r in F. exact (F B). }
    destruct c; cbn [PyShareModel.step] in H; unfold add_obj in H.
    - injection H as <- _. apply kinds_add; [exact K|]. cbn [ob_class ob_comp]. intros n N. assert (k = n) by congruence. subst n. exists (List.length (cells w)), a. split; [reflexivity|apply nth_last].
    - injection H as <- _. apply kinds_add; [exact K|]. discriminate.
    - destruct (members (objs w) l) as [m|]; injection H as <- _; [|exact K]. apply ADD0. discriminate.
    - destruct (nth_error (objs w) o) as [[[| |] [a|l]]|]; try (injection H as <- _; exact K).
      + destruct lone; [|injection H as <- _; exact K]. destruct (subtype (cells w) (One a)) as [b|] eqn:B; injection H as <- _; [|exact K]. apply ADD0. intros k. exact (subtype_kind _ _ _ _ B).
      + destruct (nth_error l i) as [a|]; [|injection H as <- _; exact K].
        destruct (subtype (cells w) (One a)) as [b|] eqn:B; injection H as <- _; [|exact K]. apply ADD0. intros k. exact (subtype_kind _ _ _ _ B).
    - exfalso. exact (NS _ _ _ eq_refl).
    - destruct (nth_error (objs w) o) as [[[| |] [a|l]]|] eqn:O; try (injection H as <- _; exact K).
      destruct (nth_error (cells w) a) as [[k' x| |]|] eqn:V; try (injection H as <- _; exact K). destruct (Nat.eqb_spec k k') as [<-|]; injection H as <- _; [|exact K].
      intros p n d P. cbn [objs cells] in *. destruct (K _ _ _ P) as (b & y & -> & N). change (put (cells w) a (Plain k (f x))) with (change (cells w) a (Plain k (f x))).
      destruct (Nat.eq_dec a b) as [<-|D].
      + assert (n = k) by congruence. subst n. exists a, (f x). split; [reflexivity|]. apply change_same. exact (nth_lt _ _ _ V).
      + exists b, y. split; [reflexivity|]. rewrite change_other by exact D. exact N.
    - destruct (load (cells w) v) as [h' k] eqn:L. destruct (load_facts _ _ _ _ L) as (l & -> & _). destruct (subtype (cells w ++ l) k) as [b|] eqn:B; injection H as <- _; [|exact K].
      apply kinds_add; [exact K|]. intros n. exact (subtype_kind _ _ _ _ B).
    - destruct (nth_error (objs w) o) as [b|] eqn:O; [|injection H as <- _; exact K]. destruct (document (cells w) (ob_comp b)) as [v|] eqn:DO; [|injection H as <- _; exact K].
      destruct (load (cells w) v) as [h' k] eqn:L. destruct (load_facts _ _ _ _ L) as (l & -> & _). injection H as <- _. apply kinds_add; [exact K|]. cbn [ob_class ob_comp]. intros n N.
      destruct b as [cl d]. cbn [ob_class ob_comp] in *. subst cl. destruct (K _ _ _ O) as (a & x & -> & V). cbn [document] in DO. rewrite V in DO. cbn [saves] in DO. injection DO as <-.
      cbn [load] in L. injection L as L <-. apply app_inv_head in L. subst l. exists (List.length (cells w)), x. split; [reflexivity|apply nth_last].
    - injection H as <- _. exact K.
    - destruct o as [o|].
      + destruct (nth_error (toks w) t) as [k|]; [|injection H as <- _; exact K]. destruct (nth_error (objs w) o) as [b|]; injection H as <- _; exact K.
      + destruct (nth_error (toks w) t) as [k|]; injection H as <- _; exact K.
    - destruct (nth_error (toks w) t) as [[k|]|]; try (injection H as <- _; exact K).
      destruct (subtype (cells w) k) as [b|] eqn:B; injection H as <- _; [|exact K]. apply ADD0. intros n. exact (subtype_kind _ _ _ _ B).
    - destruct (nth_error (toks w) t) as [[k|]|]; try (injection H as <- _; exact K).
      destruct (document (cells w) k) as [v|]; [|injection H as <- _; exact K]. destruct (load (cells w) v) as [h' k'] eqn:L. destruct (load_facts _ _ _ _ L) as (l & -> & _). injection H as <- _.
      intros o n d O. cbn [objs cells] in *. destruct (K _ _ _ O) as (a & x & -> & N). exists a, x. split; [reflexivity|]. apply nth_app. exact N.
  Qed.

  (** ** Programs that only copy what they are given *)
  Definition apart w0 w : Prop :=
    sound w /\ (exists l, objs w = objs w0 ++ l) /\ (forall t, t < List.length (toks w0) -> nth_error (toks w) t = nth_error (toks w0) t) /\
    List.length (toks w0) <= List.length (toks w) /\
    List.length (cells w0) <= List.length (cells w) /\ (forall a, a < List.length (cells w0) -> nth_error (cells w) a = nth_error (cells w0) a) /\
    (forall o b, List.length (objs w0) <= o -> nth_error (objs w) o = Some b -> Forall (le (List.length (cells w0))) (cells_of (ob_comp b))) /\
    (forall t k, List.length (toks w0) <= t -> nth_error (toks w) t = Some (Some k) -> Forall (le (List.length (cells w0))) (cells_of k)).
  Definition allowed w0 c : Prop :=
    match c with
    | OCopy _ | OCopyTok _ => True
    | _ => (forall o, given_obj c o -> List.length (objs w0) <= o) /\ (forall t, given_tok c t -> List.length (toks w0) <= t)
    end.
  Lemma members_far w0 w l m : (forall o b, List.length (objs w0) <= o -> nth_error (objs w) o = Some b -> Forall (le (List.length (cells w0))) (cells_of (ob_comp b))) ->
    (forall o, In o l -> List.length (objs w0) <= o) -> members (objs w) l = Some m -> Forall (le (List.length (cells w0))) m.
  Proof.
    intros F. revert m. induction l as [|o l IH]; intros m G H; cbn [members] in H; [injection H as <-; constructor|].
    destruct (nth_error (objs w) o) as [b|] eqn:B; [|discriminate]. destruct (members (objs w) l) as [r|] eqn:R; [|discriminate]. injection H as <-.
    apply Forall_app. split; [exact (F _ _ (G _ (or_introl eq_refl)) B)|apply IH; [intros p I; apply G; right; exact I|reflexivity]].
  Qed.
  (** The parts of what a call makes. *)
  Lemma made_far w0 w c w' e : apart w0 w -> allowed w0 c -> step w c = (w', e) ->
    (forall o b, List.length (objs w0) <= o -> nth_error (objs w') o = Some b -> Forall (le (List.length (cells w0))) (cells_of (ob_comp b))) /\
    (forall t k, List.length (toks w0) <= t -> nth_error (toks w') t = Some (Some k) -> Forall (le (List.length (cells w0))) (cells_of k)).
  Proof.
    intros (S & PO & TO & TL & CL & CE & FO & FT) AL H.
    assert (ADD : forall b h', Forall (le (List.length (cells w0))) (cells_of (ob_comp b)) -> w' = mkWorld h' (objs w ++ [b]) (toks w) ->
      (forall o b, List.length (objs w0) <= o -> nth_error (objs w') o = Some b -> Forall (le (List.length (cells w0))) (cells_of (ob_comp b))) /\
      (forall t k, List.length (toks w0) <= t -> nth_error (toks w') t = Some (Some k) -> Forall (le (List.length (cells w0))) (cells_of k))).
    { intros b h' B ->. cbn [objs toks]. split; [|exact FT]. intros o b' L O. destruct (Nat.lt_ge_cases o (List.length (objs w))) as [LT|GE].
      - rewrite nth_error_app1 in O by exact LT. exact (FO _ _ L O).
      - rewrite nth_error_app2 in O by exact GE. destruct (o - List.length (objs w)) as [|n]; [|destruct n; discriminate]. cbn [nth_error] in O. assert (b = b') by congruence. subst b'. exact B. }
    assert (TOK : forall k h', match k with Some k => Forall (le (List.length (cells w0))) (cells_of k) | None => True end -> w' = mkWorld h' (objs w) (toks w ++ [k]) ->
      (forall o b, List.length (objs w0) <= o -> nth_error (objs w') o = Some b -> Forall (le (List.length (cells w0))) (cells_of (ob_comp b))) /\
      (forall t k, List.length (toks w0) <= t -> nth_error (toks w') t = Some (Some k) -> Forall (le (List.length (cells w0))) (cells_of k))).
    { intros k h' B ->. cbn [objs toks]. split; [exact FO|]. intros t k' L O. destruct (Nat.lt_ge_cases t (List.length (toks w))) as [LT|GE].
      - rewrite nth_error_app1 in O by exact LT. exact (FT _ _ L O).
      - rewrite nth_error_app2 in O by exact GE. destruct (t - List.length (toks w)) as [|n]; [|destruct n; discriminate]. cbn [nth_error] in *. assert (k = Some k') by congruence. subst k. exact B. }
    assert (SEQ : forall l : list (value A C), Forall (le (List.length (cells w0))) (seq (List.length (cells w)) (List.length l))).
    { intros l. apply Forall_forall. intros a I. apply in_seq in I. lia. }
    assert (SAME : w' = w ->
      (forall o b, List.length (objs w0) <= o -> nth_error (objs w') o = Some b -> Forall (le (List.length (cells w0))) (cells_of (ob_comp b))) /\
      (forall t k, List.length (toks w0) <= t -> nth_error (toks w') t = Some (Some k) -> Forall (le (List.length (cells w0))) (cells_of k))).
    { intros ->. split; assumption. }
    destruct c; cbn [PyShareModel.step] in H; unfold add_obj in H; cbn [allowed given_obj given_tok] in AL.
    - injection H as H _. eapply ADD; [|symmetry; exact H]. repeat constructor. exact CL.
    - injection H as H _. eapply ADD; [|symmetry; exact H]. repeat constructor. exact CL.
    - destruct (members (objs w) l) as [m|] eqn:M; injection H as H _; [|apply SAME; congruence]. eapply ADD; [|symmetry; exact H]. cbn [ob_comp cells_of]. exact (members_far _ _ _ _ FO (proj1 AL) M).
    - destruct (nth_error (objs w) o) as [[[| |] [a|l]]|] eqn:O; try (injection H as H _; apply SAME; congruence).
      + destruct lone; [|injection H as H _; apply SAME; congruence].
        destruct (subtype (cells w) (One a)) as [b|] eqn:B; injection H as H _; [|apply SAME; congruence]. eapply ADD; [|symmetry; exact H]. rewrite (subtype_comp _ _ _ B). exact (FO _ _ (proj1 AL o eq_refl) O).
      + destruct (nth_error l i) as [a|] eqn:I; [|injection H as H _; apply SAME; congruence].
        destruct (subtype (cells w) (One a)) as [b|] eqn:B; injection H as H _; [|apply SAME; congruence]. eapply ADD; [|symmetry; exact H]. rewrite (subtype_comp _ _ _ B).
        pose proof (FO _ _ (proj1 AL o eq_refl) O) as F. cbn in F. rewrite Forall_forall in F. repeat constructor. exact (F _ (nth_error_In _ _ I)).
    - destruct (nth_error (objs w) p) as [[k [b|l]]|]; try (injection H as H _; apply SAME; congruence).
      destruct (nth_error (objs w) o) as [[[| |] [a|l]]|] eqn:O; try (injection H as H _; apply SAME; congruence).
      destruct (nth_error l i) as [a|] eqn:I; [|injection H as H _; apply SAME; congruence]. destruct (Nat.eqb a b); [injection H as H _; apply SAME; congruence|].
      destruct (nth_error (cells w) b) as [v|]; injection H as <- _; split; assumption.
    - destruct (nth_error (objs w) o) as [[[| |] [a|l]]|] eqn:O; try (injection H as H _; apply SAME; congruence).
      destruct (nth_error (cells w) a) as [[k' x| |]|]; try (injection H as H _; apply SAME; congruence). destruct (Nat.eqb k k'); injection H as <- _; split; assumption.
    - destruct (load (cells w) v) as [h' k] eqn:L. destruct (load_facts _ _ _ _ L) as (l & -> & K). destruct (subtype (cells w ++ l) k) as [b|] eqn:B; injection H as H _; [|apply SAME; congruence].
      eapply ADD; [|symmetry; exact H]. rewrite (subtype_comp _ _ _ B), K. apply SEQ.
    - destruct (nth_error (objs w) o) as [b|] eqn:O; [|injection H as H _; apply SAME; congruence]. destruct (document (cells w) (ob_comp b)) as [v|]; [|injection H as H _; apply SAME; congruence].
      destruct (load (cells w) v) as [h' k] eqn:L. destruct (load_facts _ _ _ _ L) as (l & -> & K). injection H as H _. eapply ADD; [|symmetry; exact H]. cbn [ob_comp]. rewrite K. apply SEQ.
    - injection H as H _. eapply TOK; [|symmetry; exact H]. exact Logic.I.
    - assert (ASG : forall k, match k with Some k => Forall (le (List.length (cells w0))) (cells_of k) | None => True end -> t < List.length (toks w) -> w' = mkWorld (cells w) (objs w) (set_tok (toks w) t k) ->
        (forall o b, List.length (objs w0) <= o -> nth_error (objs w') o = Some b -> Forall (le (List.length (cells w0))) (cells_of (ob_comp b))) /\
        (forall t k, List.length (toks w0) <= t -> nth_error (toks w') t = Some (Some k) -> Forall (le (List.length (cells w0))) (cells_of k))).
      { intros k B LT ->. cbn [objs toks]. split; [exact FO|]. change (set_tok (toks w) t k) with (change (toks w) t k). intros u k' L U. destruct (Nat.eq_dec t u) as [<-|D].
        - rewrite change_same in U by exact LT. assert (k = Some k') by congruence. subst k. exact B.
        - rewrite change_other in U by exact D. exact (FT _ _ L U). }
      destruct o as [o|].
      + destruct (nth_error (toks w) t) as [k|] eqn:T; [|injection H as H _; apply SAME; congruence]. destruct (nth_error (objs w) o) as [b|] eqn:O; injection H as H _; [|apply SAME; congruence].
        eapply ASG; [|exact (nth_lt _ _ _ T)|symmetry; exact H]. exact (FO _ _ (proj1 AL o eq_refl) O).
      + destruct (nth_error (toks w) t) as [k|] eqn:T; injection H as H _; [|apply SAME; congruence]. eapply ASG; [|exact (nth_lt _ _ _ T)|symmetry; exact H]. exact Logic.I.
    - destruct (nth_error (toks w) t) as [[k|]|] eqn:T; try (injection H as H _; apply SAME; congruence).
      destruct (subtype (cells w) k) as [b|] eqn:B; injection H as H _; [|apply SAME; congruence]. eapply ADD; [|symmetry; exact H]. rewrite (subtype_comp _ _ _ B). exact (FT _ _ (proj2 AL t eq_refl) T).
    - destruct (nth_error (toks w) t) as [[k|]|] eqn:T; try (injection H as H _; apply SAME; congruence).
      + destruct (document (cells w) k) as [v|]; [|injection H as H _; apply SAME; congruence].
        destruct (load (cells w) v) as [h' k'] eqn:L. destruct (load_facts _ _ _ _ L) as (l & -> & K). injection H as H _. eapply TOK; [|symmetry; exact H]. cbn beta iota. rewrite K. apply SEQ.
      + injection H as H _. eapply TOK; [|symmetry; exact H]. exact Logic.I.
  Qed.
  Lemma apart_step w0 w c w' e : apart w0 w -> allowed w0 c -> step w c = (w', e) -> apart w0 w'.
  Proof.
    intros AP AL H. pose proof (made_far _ _ _ _ _ AP AL H) as [FO' FT']. destruct AP as (S & [l0 PO] & TO & TL & CL & CE & FO & FT). pose proof (step_facts _ _ _ _ _ S H) as [S' [l PO'] T' L' TL' C'].
    assert (CH : forall a, changes w c a -> a < List.length (cells w0) -> False).
    { intros a CH LT. destruct c; cbn [changes] in CH; try contradiction; cbn [allowed given_obj] in AL.
      - pose proof (proj1 AL o (or_introl eq_refl)) as LO. unfold obj_parts in CH. destruct (nth_error (objs w) o) as [b|] eqn:O; [|destruct i; discriminate]. pose proof (FO _ _ LO O) as F.
        rewrite Forall_forall in F. specialize (F _ (nth_error_In _ _ CH)). lia.
      - pose proof (proj1 AL o eq_refl) as LO. unfold obj_parts in CH. destruct (nth_error (objs w) o) as [b|] eqn:O; [|discriminate]. pose proof (FO _ _ LO O) as F. rewrite CH in F. inversion F. lia. }
    split; [exact S'|]. split; [exists (l0 ++ l); rewrite PO', PO, app_assoc; reflexivity|]. split.
    { intros t LT. rewrite T'; [exact (TO _ LT)|lia|]. intros o ->. cbn [allowed given_tok] in AL. pose proof (proj2 AL t eq_refl). lia. }
    split; [lia|]. split; [lia|]. split; [|split; assumption]. intros a LT. rewrite C'; [exact (CE _ LT)|lia|]. intros K. exact (CH _ K LT).
  Qed.
End rest.
