(** C83: training from a Python iterator. *)
From Verif Require Import Base StrBytes Utf8 EncodingModel PreTokModel AddedModel BpeTrainModel WordPieceModel TrainersModel TokenizerModel TokenizerTrainModel TokenizerTrainProps PyInputModel PyInputSpec PyIterModel PyIterSpec.

(** ** Items *)
Fixpoint split_items (l : list item) : list str * option iter_error :=
  match l with
  | [] => ([], None)
  | Err e :: _ => ([], Some e)
  | Ok s :: l' => (s :: fst (split_items l'), snd (split_items l'))
  | Panic :: _ => ([], None)
  end.
Definition fine (l : list item) : Prop := ~ In Panic l.

Lemma as_item_fine o : as_item (py_string o) <> Panic.
Proof. destruct o; cbn; try discriminate. destruct (forallb is_scalar s); discriminate. Qed.
Lemma convert_fine el : fine (convert el).
Proof.
  destruct el as [s|l|]; cbn [convert].
  - intros [H|[]]. exact (as_item_fine _ H).
  - intros H. apply in_map_iff in H. destruct H as ([o|] & H & _); [exact (as_item_fine _ H)|discriminate].
  - intros [H|[]]; discriminate.
Qed.
Lemma items_fine events : fine (items_of events).
Proof. intros H. apply in_flat_map in H. destruct H as ([el|] & _ & H); [exact (convert_fine _ H)|destruct H as [H|[]]; discriminate]. Qed.

Lemma text_item o t : says_text o t -> as_item (py_string o) = Ok t.
Proof. intros []. cbn [py_string]. rewrite (proj2 (forallb_forall is_scalar s)) by (apply Forall_forall; assumption). reflexivity. Qed.
Lemma bad_item o e : not_text o e -> as_item (py_string o) = Err e.
Proof.
  intros [s H|o' H].
  - cbn [py_string]. destruct (forallb is_scalar s) eqn:E; [|reflexivity]. exfalso. apply H, Forall_forall, forallb_forall, E.
  - destruct o'; try reflexivity. destruct (H s eq_refl).
Qed.
Lemma batch_items l ts : batch_says l ts -> convert (ElIter l) = map Ok ts.
Proof. intros H. cbn [convert]. induction H as [|ev t l ts (o & -> & H) _ IH]; [reflexivity|]. cbn [map]. rewrite IH, (text_item _ _ H). reflexivity. Qed.
Lemma element_items el ts : element_says el ts -> convert el = map Ok ts.
Proof. intros [s t H|l us H]; [|apply batch_items, H]. cbn [convert]. rewrite (text_item _ _ H). reflexivity. Qed.
Lemma gives_items events ts : gives events ts -> items_of events = map Ok ts.
Proof. induction 1 as [|el ts events us H _ IH]; [reflexivity|]. cbn [items_of flat_map]. fold (items_of events). rewrite IH, (element_items _ _ H), map_app. reflexivity. Qed.
Lemma fails_items el ts e : element_fails el ts e -> exists rest, convert el = map Ok ts ++ Err e :: rest.
Proof.
  intros [s x H|l us o x rest H H'|l us rest H|].
  - exists []. cbn [convert]. rewrite (bad_item _ _ H). reflexivity.
  - eexists. cbn [convert]. rewrite map_app. pose proof (batch_items _ _ H) as E. cbn [convert] in E. rewrite E. cbn [map]. rewrite (bad_item _ _ H'). reflexivity.
  - eexists. cbn [convert]. rewrite map_app. pose proof (batch_items _ _ H) as E. cbn [convert] in E. rewrite E. cbn [map]. reflexivity.
  - exists []. reflexivity.
Qed.
Lemma items_app a b : items_of (a ++ b) = items_of a ++ items_of b.
Proof. apply flat_map_app. Qed.
Lemma stops_items events ts e : stops events ts e -> exists rest, items_of events = map Ok ts ++ Err e :: rest.
Proof.
  intros [before us el vs x after H F|before us after H].
  - destruct (fails_items _ _ _ F) as (rest & E). exists (rest ++ items_of after). rewrite items_app, (gives_items _ _ H). cbn [items_of flat_map]. fold (items_of after). rewrite E, map_app, <- !app_assoc. reflexivity.
  - exists (items_of after). rewrite items_app, (gives_items _ _ H). reflexivity.
Qed.
Lemma split_texts ts l : split_items (map Ok ts ++ l) = (ts ++ fst (split_items l), snd (split_items l)).
Proof. induction ts as [|t ts IH]; cbn [map app split_items]; [destruct (split_items l); reflexivity|]. rewrite IH. reflexivity. Qed.
Lemma split_length l : length (fst (split_items l)) <= length l.
Proof. induction l as [|[s|e|] l IH]; cbn [split_items fst length]; lia. Qed.

(** ** The buffer *)
Definition rest_of (b : buffered) : list item := bi_buffer b ++ match bi_iter b with Some events => items_of events | None => [] end.
Definition quiet (b : buffered) : Prop := match bi_iter b with Some events => never_raises events | None => True end.

Lemma refill_spec size events : forall buffer b' raised, refill_loop size events buffer = (b', raised) ->
  if raised then exists before after, events = before ++ Raises :: after /\ length (buffer ++ items_of before) < size
  else rest_of b' = buffer ++ items_of events /\ (never_raises events -> quiet b') /\ (bi_iter b' = None \/ size <= length (bi_buffer b')).
Proof.
  induction events as [|ev events IH]; intros buffer b' raised; cbn [refill_loop]; destruct (size <=? length buffer) eqn:L.
  - intros H. injection H as <- <-. split; [reflexivity|]. split; [auto|]. right. cbn. lia.
  - intros H. injection H as <- <-. split; [reflexivity|]. split; [intros _; exact Logic.I|]. left. reflexivity.
  - intros H. injection H as <- <-. split; [reflexivity|]. split; [auto|]. right. cbn. lia.
  - destruct ev as [el|].
    + intros H. specialize (IH _ _ _ H). destruct raised.
      * destruct IH as (before & after & -> & K). exists (Yields el :: before), after. split; [reflexivity|]. cbn [items_of flat_map]. fold (items_of before). rewrite app_assoc. exact K.
      * destruct IH as (R & Q & E). cbn [items_of flat_map]. fold (items_of events). rewrite app_assoc. split; [exact R|]. split; [|exact E]. intros NR. apply Q. intros X. apply NR. right. exact X.
    + intros H. injection H as <- <-. exists [], events. split; [reflexivity|]. rewrite app_nil_r. lia.
Qed.

(** What is got of some items: all before the first error; or less, by fewer than
    [size], and then the iterator raised. *)
Definition got (size : nat) (quiet : Prop) (l : list item) (r : list str * option iter_error) : Prop :=
  r = split_items l \/
  (~ quiet /\ snd r = Some IRaised /\ snd (split_items l) <> None /\ exists lost, fst (split_items l) = fst r ++ lost /\ length lost < size).

Lemma got_cons size (P Q : Prop) s l r : (P -> Q) -> got size Q l r -> got size P (Ok s :: l) (s :: fst r, snd r).
Proof.
  intros PQ [-> |(NQ & E & X & lost & F & L)]; [left; reflexivity|right]. cbn [split_items fst snd]. split; [tauto|]. split; [exact E|]. split; [exact X|]. exists lost. split; [rewrite F; reflexivity|exact L].
Qed.

Lemma split_before l l' : fine l -> snd (split_items (l ++ Err IRaised :: l')) <> None /\ length (fst (split_items (l ++ Err IRaised :: l'))) <= length l.
Proof.
  intros F. induction l as [|[s|e|] l IH]; cbn [app split_items fst snd length].
  - split; [discriminate|lia].
  - destruct IH as [A B]; [intros H; apply F; right; exact H|]. split; [exact A|lia].
  - split; [discriminate|lia].
  - exfalso. apply F. left. reflexivity.
Qed.

Lemma pull_spec size : 0 < size -> forall fuel b, length (rest_of b) < fuel -> fine (rest_of b) ->
  exists r, pull fuel size b = Ok r /\ got size (quiet b) (rest_of b) r.
Proof.
  intros SZ. induction fuel as [|fuel IH]; intros b HF FI; [lia|].
  assert (X : forall x rest it, rest_of b = rest_of (mkBuffered it (x :: rest)) -> (quiet b -> quiet (mkBuffered it (x :: rest))) ->
    exists r, match Some x with None => Ok ([], None) | Some (Err e) => Ok ([], Some e) | Some Panic => Panic
      | Some (Ok s) => let! ls := pull fuel size (mkBuffered it rest) in Ok (s :: fst ls, snd ls) end = Ok r /\ got size (quiet b) (rest_of b) r).
  { intros x rest it E Q. destruct x as [s|e|].
    - assert (C : rest_of b = Ok s :: rest_of (mkBuffered it rest)) by (rewrite E; reflexivity). clear E. rewrite C in HF, FI |- *.
      destruct (IH (mkBuffered it rest)) as (r & P & G); [cbn [length] in HF; lia|intros H; apply FI; right; exact H|].
      rewrite P. cbn [bind]. eexists. split; [reflexivity|]. eapply got_cons; [|exact G]. exact Q.
    - eexists. split; [reflexivity|]. left. rewrite E. reflexivity.
    - exfalso. apply FI. rewrite E. left. reflexivity. }
  cbn [pull]. unfold bi_next. destruct b as [it buf]. cbn [bi_buffer bi_iter]. destruct buf as [|x rest].
  - destruct it as [events|].
    + destruct (refill_loop size events []) as [b' raised] eqn:R. pose proof (refill_spec _ _ _ _ _ R) as H. destruct raised.
      * destruct H as (before & after & EE & L). cbn [bind fst]. eexists. split; [reflexivity|]. right. split; [|split; [reflexivity|]].
        -- intros Q. apply Q. cbn. rewrite EE. apply in_or_app. right. left. reflexivity.
        -- unfold rest_of. cbn [bi_buffer bi_iter app fst snd]. rewrite EE, items_app. change (items_of (Raises :: after)) with (Err IRaised :: items_of after).
           destruct (split_before _ (items_of after) (items_fine before)) as [A B]. cbn [app] in L. split; [exact A|]. eexists. split; [reflexivity|lia].
      * destruct H as (RE & Q & E). destruct b' as [it' [|x rest]]; cbn [bi_buffer bi_iter] in *.
        -- destruct it' as [ev'|].
           ++ exfalso. destruct E as [E|E]; [discriminate|]. cbn [length] in E. lia.
           ++ cbn [bind fst]. eexists. split; [reflexivity|]. left. unfold rest_of in *. cbn [bi_buffer bi_iter app] in *. rewrite <- RE. reflexivity.
        -- cbn [bind fst snd]. apply (X x rest it'); [|exact Q]. symmetry. exact RE.
    + cbn [bind fst]. eexists. split; [reflexivity|]. left. reflexivity.
  - cbn [bind fst snd]. apply (X x rest it); auto.
Qed.

Lemma pull_all_spec size events : 0 < size -> exists r, pull_all size events = Ok r /\ got size (never_raises events) (items_of events) r.
Proof. intros H. apply (pull_spec size H (S (length (items_of events))) (bi_new events)); [cbn; lia|apply items_fine]. Qed.

(** ** The texts *)

(** Texts and batches of texts: every text once and in order, whatever the size of the
    buffer. *)
Theorem C83_texts size events ts : 0 < size -> gives events ts -> pull_all size events = Ok (ts, None).
Proof.
  intros SZ H. apply gives_items in H. destruct (pull_all_spec size events SZ) as (r & -> & G). rewrite H in G. pose proof (split_texts ts []) as E. rewrite app_nil_r in E. cbn [split_items fst snd] in E. rewrite app_nil_r in E.
  destruct G as [-> |(_ & _ & X & _)]; rewrite E in *; [reflexivity|]. destruct (X eq_refl).
Qed.

(** An element that is not text: all texts before it, and then its error, if the
    iterator does not raise. *)
Theorem C83_bad_element size events ts e : 0 < size -> stops events ts e -> never_raises events -> pull_all size events = Ok (ts, Some e).
Proof.
  intros SZ H NR. apply stops_items in H. destruct H as (rest & H). destruct (pull_all_spec size events SZ) as (r & -> & G). rewrite H in G. pose proof (split_texts ts (Err e :: rest)) as E. cbn [split_items fst snd] in E. rewrite app_nil_r in E.
  destruct G as [-> |(Q & _)]; [rewrite E; reflexivity|destruct (Q NR)].
Qed.

(** In all cases: an error ends it, and what comes out is what came before the error,
    except that fewer than [size] texts may be missing at the end. *)
Theorem C83_stops size events ts e : 0 < size -> stops events ts e ->
  exists us lost e', pull_all size events = Ok (us, Some e') /\ ts = us ++ lost /\ length lost < size /\ (e' = e \/ e' = IRaised).
Proof.
  intros SZ H. apply stops_items in H. destruct H as (rest & H). destruct (pull_all_spec size events SZ) as (r & -> & G). rewrite H in G. pose proof (split_texts ts (Err e :: rest)) as E. cbn [split_items fst snd] in E. rewrite app_nil_r in E.
  destruct G as [-> |(_ & E' & _ & lost & F & L)]; rewrite E in *.
  - exists ts, [], e. rewrite app_nil_r. auto.
  - destruct r as [us e']. cbn [fst snd] in *. subst e'. exists us, lost, IRaised. auto.
Qed.

(** A generator of texts that raises: the texts of the last buffer are missing. *)
Lemma pull_buffer size it ss : forall fuel, pull (length ss + fuel) size (mkBuffered it (map Ok ss)) = let! r := pull fuel size (mkBuffered it []) in Ok (ss ++ fst r, snd r).
Proof.
  induction ss as [|s ss IH]; intros fuel.
  - change (pull (length (@nil str) + fuel) size (mkBuffered it (map Ok []))) with (pull fuel size (mkBuffered it [])). cbn [app]. destruct (pull fuel size (mkBuffered it [])) as [[a b]|[]|]; reflexivity.
  - cbn [length Nat.add map pull]. unfold bi_next. cbn [bi_buffer bi_iter bind fst snd]. rewrite IH. destruct (pull fuel size (mkBuffered it [])) as [[a b]|[]|]; reflexivity.
Qed.
Lemma gen_items ts : Forall (fun t => Forall (fun c => is_scalar c = true) t) ts -> items_of (map (fun t => Yields (ElStr t)) ts) = map Ok ts.
Proof. induction 1 as [|t ts H _ IH]; [reflexivity|]. cbn [map items_of flat_map]. fold (items_of (map (fun t => Yields (ElStr t)) ts)). rewrite IH. cbn [convert]. rewrite (text_item (PyStr t) t); [reflexivity|constructor; exact H]. Qed.
Lemma refill_gen size after ts : Forall (fun t => Forall (fun c => is_scalar c = true) t) ts -> forall buffer, length buffer <= size ->
  refill_loop size (map (fun t => Yields (ElStr t)) ts ++ Raises :: after) buffer =
  if size <=? length buffer + length ts then (mkBuffered (Some (map (fun t => Yields (ElStr t)) (skipn (size - length buffer) ts) ++ Raises :: after)) (buffer ++ map Ok (firstn (size - length buffer) ts)), false)
  else (mkBuffered (Some after) (buffer ++ map Ok ts), true).
Proof.
  induction 1 as [|t ts H _ IH]; intros buffer L; cbn [map app length refill_loop].
  - rewrite Nat.add_0_r. destruct (size <=? length buffer) eqn:E; [|cbn [app map]; rewrite app_nil_r; reflexivity]. rewrite skipn_nil, firstn_nil. cbn [map app]. rewrite app_nil_r. reflexivity.
  - destruct (size <=? length buffer) eqn:E.
    + replace (size - length buffer) with 0 by lia. replace (size <=? length buffer + S (length ts)) with true by lia. cbn [skipn firstn map app]. rewrite app_nil_r. reflexivity.
    + rewrite IH by (rewrite app_length; cbn [convert length]; lia). cbn [convert]. rewrite (text_item (PyStr t) t) by (constructor; exact H). rewrite app_length. cbn [length].
      replace (length buffer + 1 + length ts) with (length buffer + S (length ts)) by lia. replace (size - length buffer) with (S (size - (length buffer + 1))) by lia. cbn [skipn firstn map]. rewrite <- !app_assoc. reflexivity.
Qed.
Lemma firstn_add_skipn {A} n k (l : list A) : firstn (n + k) l = firstn n l ++ firstn k (skipn n l).
Proof. revert l. induction n as [|n IH]; intros l; [reflexivity|]. destruct l as [|a l]; cbn [Nat.add firstn skipn app]; [rewrite firstn_nil; reflexivity|]. rewrite IH. reflexivity. Qed.
Theorem C83_generator size ts after : 0 < size -> Forall (fun t => Forall (fun c => is_scalar c = true) t) ts ->
  pull_all size (map (fun t => Yields (ElStr t)) ts ++ Raises :: after) = Ok (firstn (length ts / size * size) ts, Some IRaised).
Proof.
  intros SZ H. unfold pull_all, bi_new. rewrite items_app, (gen_items _ H), app_length, map_length.
  assert (G : forall n ts fuel, length ts <= n -> length ts < fuel -> Forall (fun t => Forall (fun c => is_scalar c = true) t) ts ->
    pull fuel size (mkBuffered (Some (map (fun t => Yields (ElStr t)) ts ++ Raises :: after)) []) = Ok (firstn (length ts / size * size) ts, Some IRaised)).
  { clear ts H. induction n as [n IH] using lt_wf_ind. intros ts fuel Ln Lf H. destruct fuel as [|fuel]; [lia|]. cbn [pull]. unfold bi_next. cbn [bi_buffer bi_iter].
    rewrite (refill_gen size after ts H []) by (cbn; lia). cbn [length Nat.add app]. rewrite Nat.sub_0_r. destruct (size <=? length ts) eqn:E.
    - assert (L : size <= length ts) by lia. cbn [bi_buffer bi_iter]. destruct (firstn size ts) as [|t us] eqn:EF; [exfalso; apply (f_equal (@length _)) in EF; rewrite firstn_length in EF; cbn in EF; lia|]. cbn [map bind fst snd].
      assert (LU : S (length us) = size) by (apply (f_equal (@length _)) in EF; rewrite firstn_length in EF; cbn [length] in EF; lia).
      assert (LS : length (skipn size ts) = length ts - size) by apply skipn_length.
      replace fuel with (length us + (fuel - length us)) by lia. rewrite pull_buffer. rewrite (IH (n - 1)) by (try lia; rewrite <- (firstn_skipn size ts) in H; apply Forall_app in H; apply H). cbn [bind fst snd].
      do 2 f_equal. rewrite LS. assert (D : length ts / size = S ((length ts - size) / size)).
      { replace (length ts) with (length ts - size + 1 * size) at 1 by lia. rewrite Nat.div_add by lia. lia. }
      rewrite D. cbn [Nat.mul]. rewrite (firstn_add_skipn size _ ts), EF. reflexivity.
    - cbn [bind fst snd]. rewrite Nat.div_small by lia. reflexivity. }
  apply (G (length ts)); [lia|cbn [items_of flat_map app length]; lia|exact H].
Qed.

(** ** Training *)
Section training.
  Context {M : Type} (vocab_of : M -> model_vocab) (answer : M -> str -> res unit (list token)).
  Context (accepts : list (str * N) -> bool) (norm : option (str -> option str)) (share : list str -> reduction str).

  (** Training on the texts, however they come in batches. *)
  Theorem C83_trains tr events ts x : gives events ts ->
    py_train vocab_of answer accepts norm share tr events x = (train vocab_of answer accepts norm tr (share ts) x, None).
  Proof.
    intros H. unfold py_train. rewrite (C83_texts 256 _ _ ltac:(lia) H). destruct (train vocab_of answer accepts norm tr (share ts) x); reflexivity.
  Qed.

  (** An error: it is raised, but the tokenizer is what training on the first texts makes
      of it. *)
  Theorem C83_raises tr events ts e x : stops events ts e ->
    exists us lost e', ts = us ++ lost /\ length lost < 256 /\ (e' = e \/ e' = IRaised) /\ (never_raises events -> lost = [] /\ e' = e) /\
      match train vocab_of answer accepts norm tr (share us) x with
      | Trained y | Failed _ y => py_train vocab_of answer accepts norm share tr events x = (Failed EReading y, Some e')
      | Panicked => py_train vocab_of answer accepts norm share tr events x = (Panicked, None)
      end.
  Proof.
    intros H. destruct (C83_stops 256 _ _ _ ltac:(lia) H) as (us & lost & e' & P & E & L & K). exists us, lost, e'. split; [exact E|]. split; [exact L|]. split; [exact K|]. split.
    - intros NR. rewrite (C83_bad_element 256 _ _ _ ltac:(lia) H NR) in P. injection P as <- <-. split; [|reflexivity]. apply (app_inv_head ts). rewrite app_nil_r. congruence.
    - unfold py_train. rewrite P. destruct (train vocab_of answer accepts norm tr (share us) x); reflexivity.
  Qed.
End training.

(** ** Examples and findings *)
Definition t_a : list N := [97%N].
Definition t_b : list N := [98%N].
Definition ex_events : list (py_event py_element) := [Yields (ElStr t_a); Yields (ElIter [Yields (PyStr t_b); Yields (PyStr t_a)]); Yields (ElIter [])].
Example C83_ex : gives ex_events [t_a; t_b; t_a] /\ stops (ex_events ++ [Yields (ElIter [Yields (PyStr t_b); Yields PyOther])]) [t_a; t_b; t_a; t_b] (IBad EType) /\
  stops (ex_events ++ [Raises]) [t_a; t_b; t_a] IRaised.
Proof.
  assert (T : forall s, In s [t_a; t_b] -> says_text (PyStr s) s) by (intros s [<- |[<- |[]]]; repeat constructor).
  assert (G : gives ex_events [t_a; t_b; t_a]).
  { apply (gives_cons _ [t_a] _ [t_b; t_a]); [constructor; apply T; cbn; auto|]. apply (gives_cons _ [t_b; t_a] _ []).
    - constructor. constructor; [eexists; split; [reflexivity|apply T; cbn; auto]|]. constructor; [eexists; split; [reflexivity|apply T; cbn; auto]|constructor].
    - apply (gives_cons _ [] _ []); [constructor; constructor|constructor]. }
  split; [exact G|]. split.
  - apply (stop_element ex_events [t_a; t_b; t_a] _ [t_b] _ [] G). apply (ef_item [Yields (PyStr t_b)] [t_b] PyOther _ []); [|constructor; discriminate].
    constructor; [eexists; split; [reflexivity|apply T; cbn; auto]|constructor].
  - exact (stop_raise ex_events _ [] G).
Qed.

(** A generator that raises after its first text: the text is lost, yet the model has
    been replaced (by one trained on nothing) when the exception is raised. *)
Definition it_trainee : trainee wordlevel := mkTrainee (ex_tokenizer av_new) (mkWL [([97], 0); ([98], 1)]%N [63%N]).
Definition it_share (l : list str) : reduction str := fold_right (fun a r => RNode (RLeaf a) r) RId l.
Theorem C83_raise_refuted : exists events y, events = [Yields (ElStr t_a); Raises] /\ pull_all 256 events = Ok ([], Some IRaised) /\
  py_train wl_vocabulary wl_model (fun _ => true) None it_share (wl_teacher (mkWlt 0 9 []) []) events it_trainee = (Failed EReading y, Some IRaised) /\
  wl_token_to_id (te_model y) t_a = None /\ wl_token_to_id (te_model it_trainee) t_a = Some 0%N.
Proof.
  set (p := py_train wl_vocabulary wl_model (fun _ => true) None it_share (wl_teacher (mkWlt 0 9 []) []) [Yields (ElStr t_a); Raises] it_trainee).
  destruct (look_failed (fst p) (fun y => wl_token_to_id (te_model y) t_a) None) as (y & E & K); [vm_compute; reflexivity|].
  exists [Yields (ElStr t_a); Raises], y. split; [reflexivity|]. split; [reflexivity|]. split; [|split; [exact K|reflexivity]].
  change (p = (Failed EReading y, Some IRaised)). rewrite (surjective_pairing p), E. f_equal.
Qed.
