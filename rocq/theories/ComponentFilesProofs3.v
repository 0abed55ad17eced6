(** Proofs about loading components from any value. *)
From Coq Require Import String.
From Verif Require Import Base ListFacts StrBytes AMap EncodingModel NormModel PatternModel DecodersModel ProcessorsModel NormalizersModel PreTokenizersModel ModelFilesModel ModelFilesSpec ModelFilesProofs ComponentFilesModel ComponentFilesSpec ComponentFilesProofs.

(** ** No panic *)
Section calm.
  Context {W : Type} (E : engines).
  Notation value := (json W).
  Definition calm {T} (r : res file_error T) : Prop := r <> Panic.

  Lemma calm_bind {S T} (r : res file_error S) (f : S -> res file_error T) : calm r -> (forall x, calm (f x)) -> calm (bind r f).
  Proof using. intros H K. destruct r; cbn [bind]; [apply K|discriminate|contradiction]. Qed.
  Lemma calm_field k (l : list (str * value)) : calm (field k l).
  Proof using. unfold field. destruct (filter _ l) as [|? [|]]; discriminate. Qed.
  Lemma calm_need {T} k (read : value -> res file_error T) l : (forall v, calm (read v)) -> calm (need k read l).
  Proof using. intros H. unfold need. apply calm_bind; [apply calm_field|]. intros [v|]; [apply H|discriminate]. Qed.
  Lemma calm_need_or {T} k (read : value -> res file_error T) d l : (forall v, calm (read v)) -> calm (need_or k read d l).
  Proof using. intros H. unfold need_or. apply calm_bind; [apply calm_field|]. intros [v|]; [apply H|discriminate]. Qed.
  Lemma calm_may {T} k (read : value -> res file_error T) l : (forall v, calm (read v)) -> calm (may k read l).
  Proof using. intros H. unfold may. apply calm_bind; [apply calm_field|]. intros [v|]; [|discriminate]. unfold as_option. specialize (H v). destruct v; try discriminate; (apply calm_bind; [exact H|discriminate]). Qed.
  Lemma calm_vec {T} (read : value -> res file_error T) v : (forall v, calm (read v)) -> calm (as_vec read v).
  Proof using. intros H. destruct v; try discriminate. cbn [as_vec]. induction l as [|x l IH]; [discriminate|]. cbn [map_res]. apply calm_bind; [apply H|]. intros y. apply calm_bind; [exact IH|discriminate]. Qed.
  Lemma calm_typed {T} n l (r : res file_error T) : calm r -> calm (typed (W := W) n l r).
  Proof using. intros H. unfold typed. apply calm_bind; [|intros _; exact H]. apply calm_need. intros v. destruct v; try discriminate. cbn [the_text]. destruct (str_eqb _ _); discriminate. Qed.
  Lemma calm_bool (v : value) : calm (as_bool v).
  Proof using. destruct v; discriminate. Qed.
  Lemma calm_str (v : value) : calm (as_str v).
  Proof using. destruct v; discriminate. Qed.
  Lemma calm_char (v : value) : calm (as_char v).
  Proof using. destruct v as [| | | |[|? [|]]| |]; discriminate. Qed.
  Lemma calm_u32 (v : value) : calm (as_u32 v).
  Proof using. destruct v; try discriminate. unfold calm, as_u32. destruct (N.ltb _ _); discriminate. Qed.
  Lemma calm_nat (v : value) : calm (as_nat v).
  Proof using. unfold as_nat. apply calm_bind; [|discriminate]. destruct v; try discriminate. unfold calm, as_usize. destruct (N.ltb _ _); discriminate. Qed.
  Lemma calm_array (v : value) : calm (as_array v).
  Proof using. destruct v; discriminate. Qed.
  Lemma calm_pattern (v : value) : calm (as_pattern v).
  Proof using. unfold calm, as_pattern. destruct v as [| | | | | |[|[k []] []]]; try discriminate. destruct (str_eqb _ _); [discriminate|]. destruct (str_eqb _ _); discriminate. Qed.
  Lemma calm_compiled p : calm (compiled E p).
  Proof using. unfold compiled. destruct (en_regex E p); discriminate. Qed.
  Lemma calm_behavior (v : value) : calm (as_behavior v).
  Proof using. unfold calm, as_behavior. destruct v; try discriminate. repeat (match goal with |- context [str_eqb ?a ?b] => destruct (str_eqb a b) end; [discriminate|]). discriminate. Qed.
  Lemma calm_scheme (v : value) : calm (as_scheme v).
  Proof using. unfold calm, as_scheme. destruct v; try discriminate. repeat (match goal with |- context [str_eqb ?a ?b] => destruct (str_eqb a b) end; [discriminate|]). discriminate. Qed.
  Lemma calm_tseq (v : value) : calm (as_tseq v).
  Proof using. unfold calm, as_tseq. destruct v; try discriminate. repeat (match goal with |- context [str_eqb ?a ?b] => destruct (str_eqb a b) end; [discriminate|]). discriminate. Qed.
  Lemma calm_tok_id (v : value) : calm (as_tok_id v).
  Proof using. unfold as_tok_id, as_pair. destruct v as [| | | | |[|a [|b []]]|]; try discriminate. apply calm_bind; [apply calm_str|]. intros x. apply calm_bind; [apply calm_u32|discriminate]. Qed.
  Lemma calm_piece (v : value) : calm (as_piece v).
  Proof using.
    unfold as_piece. destruct v as [| | | | | |[|[k []] []]]; try discriminate. destruct (str_eqb _ _); [|destruct (str_eqb _ _); [|discriminate]].
    - apply calm_bind; [apply calm_need, calm_tseq|]. intros s. apply calm_bind; [apply calm_need, calm_u32|discriminate].
    - apply calm_bind; [apply calm_need, calm_str|]. intros s. apply calm_bind; [apply calm_need, calm_u32|discriminate].
  Qed.
  Lemma calm_special (v : value) : calm (as_special_token v).
  Proof using.
    unfold as_special_token. destruct v; try discriminate. apply calm_bind; [apply calm_need, calm_str|]. intros i.
    apply calm_bind; [apply calm_need; intros v; apply calm_vec, calm_u32|]. intros is. apply calm_bind; [apply calm_need; intros v; apply calm_vec, calm_str|discriminate].
  Qed.
  Lemma calm_specials (v : value) : calm (as_specials_map v).
  Proof using.
    unfold as_specials_map. destruct v; try discriminate. generalize (@nil (str * special_token)). induction l as [|[k v] l IH]; intros m; [discriminate|].
    cbn [into_specials]. apply calm_bind; [apply calm_special|]. intros s. apply IH.
  Qed.

  Lemma calm_collect {T} (ks : list (res file_error T)) : Forall calm ks -> calm (collect ks).
  Proof using. induction 1 as [|r ks R _ IH]; [discriminate|]. cbn [collect]. apply calm_bind; [exact R|]. intros x. apply calm_bind; [exact IH|discriminate]. Qed.
  Lemma calm_nested {T} k l (ks : list (res file_error T)) : Forall calm ks -> calm (nested (W := W) k l ks).
  Proof using. intros H. unfold nested. apply calm_bind; [apply calm_need, calm_array|]. intros _. apply calm_collect. exact H. Qed.
  Lemma calm_first {T} (rs : list (res file_error T)) : Forall calm rs -> calm (first_ok rs).
  Proof using. induction 1 as [|r rs R _ IH]; [discriminate|]. cbn [first_ok]. unfold or_try. destruct r; [discriminate|exact IH|contradiction]. Qed.

  Lemma by_name_in {T} s (vs : list (string * T)) r : by_name s vs = Some r -> exists n, In (n, r) vs /\ s = key n.
  Proof using.
    induction vs as [|[n x] vs IH]; [discriminate|]. cbn [by_name]. destruct (str_eqb s (key n)) eqn:Q.
    - intros H. injection H as ->. apply str_eqb_eq in Q. exists n. split; [left; reflexivity|exact Q].
    - intros H. destruct (IH H) as (n' & I & Q'). exists n'. split; [right; exact I|exact Q'].
  Qed.
  Lemma tagged_panic {T} l (vs : list (string * res file_error T)) legacy : tagged_or (W := W) l vs legacy = Panic -> Forall calm legacy ->
    exists n, In (n, Panic) vs /\ type_name l = Some (key n).
  Proof using.
    unfold tagged_or. intros H L. apply calm_first in L. destruct (type_name l) as [s|]; [|contradiction].
    destruct (by_name s vs) as [r|] eqn:B; [|contradiction]. subst r. destruct (by_name_in _ _ _ B) as (n & I & ->). eauto.
  Qed.
  Lemma type_in (l : list (str * value)) s : type_name l = Some s -> In (key "type", JStr s) l.
  Proof using.
    unfold type_name, field. destruct (filter _ l) as [|[k v] [|]] eqn:F; try discriminate. cbn [snd]. destruct v; try discriminate. intros H. injection H as ->.
    assert (I : In (k, JStr s) (filter (fun kv : str * value => str_eqb (fst kv) (key "type")) l)) by (rewrite F; left; reflexivity). apply filter_In in I. destruct I as [I Q]. apply str_eqb_eq in Q. cbn in Q. subst k. exact I.
  Qed.
  Lemma kids_all {T} (Q : res file_error T -> Prop) k (f : value -> res file_error T) l :
    Forall (fun kv => match snd kv with JArr xs => Forall (fun x => Q (f x)) xs | _ => True end) l -> Forall Q (kids k f l).
  Proof using.
    induction 1 as [|kv l H _ IH]; [constructor|]. unfold kids in *. cbn [flat_map]. apply Forall_app. split; [|exact IH]. destruct (str_eqb _ _); [|constructor].
    destruct (snd kv); try constructor. apply Forall_map. exact H.
  Qed.
End calm.

Ltac calm_tac := repeat first
  [ apply calm_typed | match goal with |- calm (may _ _ _) => apply calm_may; intros end | apply calm_need; intros | apply calm_need_or; intros
  | apply calm_bool | apply calm_str | apply calm_char | apply calm_u32 | apply calm_nat | apply calm_pattern | apply calm_compiled | apply calm_behavior
  | apply calm_scheme | apply calm_tok_id | apply calm_specials | apply calm_vec; intros | apply calm_piece | apply calm_nested; assumption | apply calm_bind; [|intros] | discriminate ].

Section load.
  Context {W : Type} (E : engines).
  Notation value := (json W).
  Implicit Types l : list (str * value).

  Lemma calm_unit {T} n (x : T) l : calm (unit_from n x l).
  Proof using. unfold unit_from. calm_tac. Qed.
  Lemma calm_byte_level {T} (f : bool -> bool -> bool -> T) l : calm (byte_level_from f l).
  Proof using. unfold byte_level_from. calm_tac. Qed.
  Lemma calm_metaspace {T} (f : char -> prepend_scheme -> bool -> T) l : calm (metaspace_from f l).
  Proof using. unfold metaspace_from. calm_tac. match goal with |- calm (match ?o with _ => _ end) => destruct o as [[]|]; try discriminate end. match goal with |- context [is_never ?s] => destruct (is_never s); discriminate end. Qed.
  Lemma calm_replace {T} (f : pattern -> str -> T) l : calm (replace_from E f l).
  Proof using. unfold replace_from. calm_tac. Qed.
  Lemma calm_precompiled l : calm (precompiled_from E l).
  Proof using. unfold precompiled_from. calm_tac. destruct (en_chart E x); discriminate. Qed.

  Lemma calm_pre_read l ks : Forall calm ks -> calm (pre_read E l ks).
  Proof using.
    intros K H. apply tagged_panic in H.
    - destruct H as (n & I & _). cbn [In] in I. repeat destruct I as [I|I]; try contradiction; injection I as _ I; revert I;
        unfold delimiter_from, pre_seq_from, split_from, punctuation_from, digits_from, fixed_from; (apply calm_unit || apply calm_byte_level || apply calm_metaspace || match goal with |- ?r = Panic -> False => change (calm r) end); calm_tac.
    - repeat constructor; try apply calm_unit; try apply calm_byte_level; try apply calm_metaspace; unfold delimiter_from, pre_seq_from, split_from, punctuation_from, digits_from, fixed_from; calm_tac.
  Qed.
  Lemma calm_dec_read l ks : Forall calm ks -> calm (dec_read E l ks).
  Proof using.
    intros K H. apply tagged_panic in H.
    - destruct H as (n & I & _). cbn [In] in I. repeat destruct I as [I|I]; try contradiction; injection I as _ I; revert I;
        unfold bpe_dec_from, wordpiece_dec_from, ctc_from, dec_seq_from, strip_dec_from; (apply calm_unit || apply calm_byte_level || apply calm_metaspace || apply calm_replace || match goal with |- ?r = Panic -> False => change (calm r) end); calm_tac.
    - repeat constructor; try apply calm_unit; try apply calm_byte_level; try apply calm_metaspace; try apply calm_replace; unfold bpe_dec_from, wordpiece_dec_from, ctc_from, dec_seq_from, strip_dec_from; calm_tac.
  Qed.
  Lemma calm_proc_read l ks : Forall calm ks -> calm (proc_read l ks).
  Proof using.
    intros K. apply calm_first. repeat constructor; try apply calm_byte_level; unfold roberta_from, bert_from, template_from, proc_seq_from; calm_tac.
  Qed.
  Lemma norm_read_panic l ks : Forall calm ks -> norm_read E l ks = Panic -> In (key "type", JStr (key "Precompiled")) l.
  Proof using.
    intros K H. apply tagged_panic in H.
    - destruct H as (n & I & T). cbn [In] in I. repeat destruct I as [I|I]; try contradiction; injection I as <- I; try (apply type_in; exact T); exfalso; revert I;
        unfold bert_norm_from, strip_norm_from, prepend_from, norm_seq_from; (apply calm_unit || apply calm_replace || match goal with |- ?r = Panic -> False => change (calm r) end); calm_tac.
    - repeat constructor; try apply calm_unit; try apply calm_replace; try apply calm_precompiled; unfold bert_norm_from, strip_norm_from, prepend_from, norm_seq_from; calm_tac.
  Qed.

  (** Induction: a property of the results for a value and for its elements. *)
  Lemma read_ind (Q : value -> Prop) :
    (forall j, (forall l, j <> JObj l) -> Q j) ->
    (forall l, Forall (fun kv => match snd kv with JArr xs => Forall Q xs | _ => True end) l -> Q (JObj l)) -> forall j, Q j.
  Proof using.
    intros H1 H2 j. enough (Q j /\ match j with JArr xs => Forall Q xs | _ => True end) by tauto.
    induction j as [| | | | |l IH|l IH] using json_ind'; try (split; [apply H1; discriminate|exact Logic.I]).
    - split; [apply H1; discriminate|]. eapply Forall_impl; [|exact IH]. intros x [H _]. exact H.
    - split; [|exact Logic.I]. apply H2. eapply Forall_impl; [|exact IH]. intros kv [_ H]. exact H.
  Qed.

  Lemma pre_calm (j : value) : calm (pre_of_json E j).
  Proof using.
    induction j as [j N|l IH] using read_ind; [destruct j; try discriminate; exfalso; eapply N; reflexivity|]. cbn [pre_of_json]. apply calm_pre_read. apply kids_all. exact IH.
  Qed.
  Lemma dec_calm (j : value) : calm (dec_of_json E j).
  Proof using.
    induction j as [j N|l IH] using read_ind; [destruct j; try discriminate; exfalso; eapply N; reflexivity|]. cbn [dec_of_json]. apply calm_dec_read. apply kids_all. exact IH.
  Qed.
  Lemma proc_calm (j : value) : calm (proc_of_json j).
  Proof using.
    induction j as [j N|l IH] using read_ind; [destruct j; try discriminate; exfalso; eapply N; reflexivity|]. cbn [proc_of_json]. apply calm_proc_read. apply kids_all. exact IH.
  Qed.
  Lemma norm_panic (j : value) : norm_of_json E j = Panic -> mentions "Precompiled" j.
  Proof using.
    induction j as [j N|l IH] using read_ind; [destruct j; try discriminate; exfalso; eapply N; reflexivity|]. cbn [norm_of_json]. intros H.
    assert (D : Forall calm (kids "normalizers" (norm_of_json E) l) \/ exists k xs x, In (k, JArr xs) l /\ In x xs /\ norm_of_json E x = Panic).
    { clear. induction l as [|[k v] l IH]; [left; constructor|]. unfold kids in *. cbn [flat_map fst snd]. destruct IH as [IH|(k' & xs & x & I1 & I2 & P)]; [|right; exists k', xs, x; split; [right; exact I1|auto]].
      destruct (str_eqb k _); [|left; exact IH]. destruct v; try (left; exact IH).
      assert (C : Forall (fun x => calm (norm_of_json E x)) l0 \/ exists x, In x l0 /\ norm_of_json E x = Panic).
      { clear. induction l0 as [|x l0 IH]; [left; constructor|]. destruct IH as [IH|(y & I & P)]; [|right; exists y; split; [right; exact I|exact P]].
        destruct (norm_of_json E x) eqn:X; [left|left|right; exists x; split; [left; reflexivity|exact X]]; constructor; try exact IH; rewrite X; discriminate. }
      destruct C as [C|(x & I & P)]; [left; apply Forall_app; split; [apply Forall_map; exact C|exact IH]|right]. exists k, l0, x. split; [left; reflexivity|auto]. }
    destruct D as [D|(k & xs & x & I1 & I2 & P)].
    - apply me_here. eapply norm_read_panic; eassumption.
    - eapply me_field; [exact I1|]. eapply me_item; [exact I2|]. rewrite Forall_forall in IH. specialize (IH _ I1). cbn [snd] in IH. rewrite Forall_forall in IH. apply IH; assumption.
  Qed.

  (** ** What is loaded is valid *)
  Definition good {T} (V : T -> Prop) (r : res file_error T) : Prop := forall x, r = Ok x -> V x.
  Lemma good_bind {S T} (V : T -> Prop) (r : res file_error S) (f : S -> res file_error T) : (forall x, r = Ok x -> good V (f x)) -> good V (bind r f).
  Proof using. intros H y Y. destruct r; cbn [bind] in Y; try discriminate. eapply H; [reflexivity|exact Y]. Qed.
  Lemma good_ok {T} (V : T -> Prop) x : V x -> good V (Ok x).
  Proof using. intros H y Y. injection Y as <-. exact H. Qed.
  Lemma good_first {T} (V : T -> Prop) rs : Forall (good V) rs -> good V (first_ok rs).
  Proof using. induction 1 as [|r rs R _ IH]; intros x H; [discriminate|]. cbn [first_ok] in H. destruct r; cbn [or_try] in H; [apply R; exact H|apply IH; exact H|discriminate]. Qed.
  Lemma good_tagged {T} (V : T -> Prop) l vs legacy : Forall (fun v => good V (snd v)) vs -> Forall (good V) legacy -> good V (tagged_or (W := W) l vs legacy).
  Proof using.
    intros H1 H2. unfold tagged_or. destruct (type_name l) as [s|]; [|apply good_first; exact H2]. destruct (by_name s vs) as [r|] eqn:B; [|apply good_first; exact H2].
    apply by_name_in in B. destruct B as (n & I & _). rewrite Forall_forall in H1. apply (H1 _ I).
  Qed.
  Lemma good_typed {T} (V : T -> Prop) n l r : good V r -> good V (typed (W := W) n l r).
  Proof using. intros H. unfold typed. apply good_bind. intros _ _. exact H. Qed.
  Lemma good_collect {T} (V : T -> Prop) ks : Forall (good V) ks -> good (Forall V) (collect ks).
  Proof using. induction 1 as [|r ks R _ IH]; cbn [collect]; [apply good_ok; constructor|]. apply good_bind. intros x X. apply good_bind. intros xs XS. apply good_ok. constructor; auto. Qed.
  Lemma good_nested {T} (V : T -> Prop) k l ks : Forall (good V) ks -> good (Forall V) (nested (W := W) k l ks).
  Proof using. intros H. unfold nested. apply good_bind. intros _ _. apply good_collect. exact H. Qed.
  Lemma good_need {T} (V : T -> Prop) k read l : (forall v, good V (read v)) -> good V (need (W := W) k read l).
  Proof using. intros H. unfold need. apply good_bind. intros [v|] _; [apply H|discriminate]. Qed.
  Lemma good_need_or {T} (V : T -> Prop) k read d l : (forall v, good V (read v)) -> V d -> good V (need_or (W := W) k read d l).
  Proof using. intros H D. unfold need_or. apply good_bind. intros [v|] _; [apply H|apply good_ok; exact D]. Qed.
  Lemma good_u32 (v : value) : good (fits 32) (as_u32 v).
  Proof using. destruct v; try discriminate. unfold as_u32. destruct (N.ltb n (2 ^ 32)) eqn:Q; [|discriminate]. apply good_ok. apply N.ltb_lt. exact Q. Qed.
  Lemma good_nat (v : value) : good (fun n => fits 64 (N.of_nat n)) (as_nat v).
  Proof using. unfold as_nat. apply good_bind. intros n H. apply good_ok. rewrite Nnat.N2Nat.id. destruct v; try discriminate. unfold as_usize in H. destruct (N.ltb n0 (2 ^ 64)) eqn:Q; [|discriminate]. injection H as <-. apply N.ltb_lt. exact Q. Qed.
  Lemma good_any {T} (r : res file_error T) : good (fun _ => True) r.
  Proof using. intros x _. exact Logic.I. Qed.
  Lemma good_vec {T} (V : T -> Prop) read (v : value) : (forall v, good V (read v)) -> good (Forall V) (as_vec read v).
  Proof using.
    intros H. destruct v; try discriminate. cbn [as_vec]. induction l as [|x l IH]; cbn [map_res]; [apply good_ok; constructor|].
    apply good_bind. intros y Y. apply good_bind. intros ys YS. apply good_ok. constructor; [eapply H; exact Y|apply IH; exact YS].
  Qed.
  Lemma good_tok_id (v : value) : good (fun t => fits 32 (snd t)) (as_tok_id v).
  Proof using. unfold as_tok_id, as_pair. destruct v as [| | | | |[|a [|b []]]|]; try discriminate. apply good_bind. intros x _. apply good_bind. intros y Y. apply good_ok. eapply good_u32. exact Y. Qed.
  Lemma good_piece (v : value) : good piece_valid (as_piece v).
  Proof using.
    unfold as_piece. destruct v as [| | | | | |[|[k []] []]]; try discriminate. destruct (str_eqb _ _); [|destruct (str_eqb _ _); [|discriminate]].
    - apply good_bind. intros s _. apply good_bind. intros t T. apply good_ok. eapply (good_need (fits 32)); [apply good_u32|exact T].
    - apply good_bind. intros s _. apply good_bind. intros t T. apply good_ok. eapply (good_need (fits 32)); [apply good_u32|exact T].
  Qed.
  Lemma good_special (v : value) : good (fun s => Forall (fits 32) (st_ids s)) (as_special_token v).
  Proof using.
    unfold as_special_token. destruct v; try discriminate. apply good_bind. intros i _. apply good_bind. intros is H. apply good_bind. intros ts _. apply good_ok. cbn [st_ids].
    eapply (good_need (Forall (fits 32))); [|exact H]. intros v. apply good_vec, good_u32.
  Qed.
  Definition specials_valid (m : list (str * special_token)) : Prop := NoDup (map fst m) /\ Forall (fun e => Forall (fits 32) (st_ids (snd e))) m.
  Lemma good_into l m : specials_valid m -> good specials_valid (into_specials l m).
  Proof using.
    revert m. induction l as [|[k v] l IH]; intros m [D H]; cbn [into_specials]; [apply good_ok; split; assumption|]. apply good_bind. intros s S. apply good_special in S. apply IH. split.
    - apply (aset_nodup str_eqb str_eqb_eq). exact D.
    - clear - H S. induction H as [|[k' s'] m X H IH]; cbn [aset]; [constructor; [exact S|constructor]|]. destruct (str_eqb k k'); constructor; assumption.
  Qed.
  Lemma good_specials (v : value) : good specials_valid (as_specials_map v).
  Proof using. unfold as_specials_map. destruct v; try discriminate. apply good_into. split; constructor. Qed.

  Lemma good_compiled p u : compiled E p = Ok u -> en_regex E p <> None.
  Proof using. unfold compiled. destruct (en_regex E p); [discriminate|discriminate]. Qed.
  Lemma good_replace {T} (V : T -> Prop) (f : pattern -> str -> T) l : (forall p s, en_regex E p <> None -> V (f p s)) -> good V (replace_from E f l).
  Proof using. intros H. unfold replace_from. apply good_bind. intros p _. apply good_bind. intros s _. apply good_bind. intros u U. apply good_ok. apply H. eapply good_compiled. exact U. Qed.
  Lemma good_unit {T} (V : T -> Prop) n (x : T) l : V x -> good V (unit_from n x l).
  Proof using. intros H. apply good_typed, good_ok, H. Qed.
  Lemma good_byte_level {T} (V : T -> Prop) (f : bool -> bool -> bool -> T) l : (forall a b c, V (f a b c)) -> good V (byte_level_from f l).
  Proof using. intros H. apply good_typed. apply good_bind. intros a _. apply good_bind. intros b _. apply good_bind. intros c _. apply good_ok, H. Qed.
  Lemma good_metaspace {T} (V : T -> Prop) (f : char -> prepend_scheme -> bool -> T) l : (forall a b c, V (f a b c)) -> good V (metaspace_from f l).
  Proof using.
    intros H. apply good_typed. apply good_bind. intros a _. apply good_bind. intros b _. apply good_bind. intros c _. apply good_bind. intros d _. apply good_bind. intros e _.
    destruct b as [[]|]; try (apply good_ok, H). destruct (is_never c); [apply good_ok, H|discriminate].
  Qed.

  Lemma good_norm (j : value) : good (norm_valid E) (norm_of_json E j).
  Proof using.
    induction j as [j N|l IH] using read_ind; [destruct j; try discriminate; exfalso; eapply N; reflexivity|]. cbn [norm_of_json].
    assert (K : Forall (good (norm_valid E)) (kids "normalizers" (norm_of_json E) l)) by (apply kids_all; exact IH).
    assert (H1 : good (norm_valid E) (bert_norm_from l)) by (unfold bert_norm_from; repeat (apply good_bind; intros); apply good_ok; exact Logic.I).
    assert (H2 : good (norm_valid E) (strip_norm_from l)) by (unfold strip_norm_from; repeat (apply good_bind; intros); apply good_ok; exact Logic.I).
    assert (H3 : good (norm_valid E) (norm_seq_from l (kids "normalizers" (norm_of_json E) l))).
    { unfold norm_seq_from. apply good_bind. intros cs C. apply good_ok. apply (good_nested _ _ _ _ K) in C. apply all_of_forall. exact C. }
    assert (H4 : good (norm_valid E) (precompiled_from E l)).
    { unfold precompiled_from. apply good_bind. intros m _. destruct (en_chart E m) eqn:C; [|discriminate]. apply good_ok. cbn [norm_valid]. congruence. }
    assert (H5 : good (norm_valid E) (expected (precompiled_from E l))) by (intros c C; apply H4; destruct (precompiled_from E l); [exact C|discriminate|discriminate]).
    assert (H6 : good (norm_valid E) (replace_from E CnReplace l)) by (apply good_replace; auto).
    assert (H7 : good (norm_valid E) (prepend_from l)) by (unfold prepend_from; repeat (apply good_bind; intros); apply good_ok; exact Logic.I).
    apply good_tagged; repeat (constructor; [cbn [snd]; first [assumption | apply good_unit; exact Logic.I]|]); constructor.
  Qed.
  Lemma good_pre (j : value) : good (pre_valid E) (pre_of_json E j).
  Proof using.
    induction j as [j N|l IH] using read_ind; [destruct j; try discriminate; exfalso; eapply N; reflexivity|]. cbn [pre_of_json].
    assert (K : Forall (good (pre_valid E)) (kids "pretokenizers" (pre_of_json E) l)) by (apply kids_all; exact IH).
    assert (H1 : good (pre_valid E) (byte_level_from CpByteLevel l)) by (apply good_byte_level; intros; exact Logic.I).
    assert (H2 : good (pre_valid E) (delimiter_from l)) by (apply good_typed; repeat (apply good_bind; intros); apply good_ok; exact Logic.I).
    assert (H3 : good (pre_valid E) (metaspace_from CpMetaspace l)) by (apply good_metaspace; intros; exact Logic.I).
    assert (H4 : good (pre_valid E) (pre_seq_from l (kids "pretokenizers" (pre_of_json E) l))).
    { apply good_typed. apply good_bind. intros cs C. apply good_ok. apply (good_nested _ _ _ _ K) in C. apply all_of_forall. exact C. }
    assert (H5 : good (pre_valid E) (split_from E l)).
    { apply good_typed. apply good_bind. intros p _. apply good_bind. intros b _. apply good_bind. intros i _. apply good_bind. intros u U. apply good_ok. eapply good_compiled. exact U. }
    assert (H6 : good (pre_valid E) (punctuation_from l)) by (apply good_typed; repeat (apply good_bind; intros); apply good_ok; exact Logic.I).
    assert (H7 : good (pre_valid E) (digits_from l)) by (apply good_typed; repeat (apply good_bind; intros); apply good_ok; exact Logic.I).
    assert (H8 : good (pre_valid E) (fixed_from l)).
    { apply good_typed. apply good_bind. intros n H. apply good_ok. eapply (good_need_or (fun n => fits 64 (N.of_nat n))); [apply good_nat| |exact H]. reflexivity. }
    apply good_tagged; repeat (constructor; [cbn [snd]; first [assumption | apply good_unit; exact Logic.I]|]); constructor.
  Qed.
  Lemma good_dec (j : value) : good (dec_valid E) (dec_of_json E j).
  Proof using.
    induction j as [j N|l IH] using read_ind; [destruct j; try discriminate; exfalso; eapply N; reflexivity|]. cbn [dec_of_json].
    assert (K : Forall (good (dec_valid E)) (kids "decoders" (dec_of_json E) l)) by (apply kids_all; exact IH).
    assert (H1 : good (dec_valid E) (byte_level_from CdByteLevel l)) by (apply good_byte_level; intros; exact Logic.I).
    assert (H2 : good (dec_valid E) (bpe_dec_from l)) by (unfold bpe_dec_from; repeat (apply good_bind; intros); apply good_ok; exact Logic.I).
    assert (H3 : good (dec_valid E) (metaspace_from CdMetaspace l)) by (apply good_metaspace; intros; exact Logic.I).
    assert (H4 : good (dec_valid E) (dec_seq_from l (kids "decoders" (dec_of_json E) l))).
    { apply good_typed. apply good_bind. intros cs C. apply good_ok. apply (good_nested _ _ _ _ K) in C. apply all_of_forall. exact C. }
    assert (H5 : good (dec_valid E) (wordpiece_dec_from l)) by (unfold wordpiece_dec_from; repeat (apply good_bind; intros); apply good_ok; exact Logic.I).
    assert (H6 : good (dec_valid E) (ctc_from l)) by (unfold ctc_from; repeat (apply good_bind; intros); apply good_ok; exact Logic.I).
    assert (H7 : good (dec_valid E) (replace_from E CdReplace l)) by (apply good_replace; auto).
    assert (H8 : good (dec_valid E) (strip_dec_from l)).
    { unfold strip_dec_from. apply good_bind. intros c _. apply good_bind. intros a HA. apply good_bind. intros b HB. apply good_ok. split.
      - eapply (good_need (fun n => fits 64 (N.of_nat n))); [apply good_nat|exact HA].
      - eapply (good_need (fun n => fits 64 (N.of_nat n))); [apply good_nat|exact HB]. }
    apply good_tagged; repeat (constructor; [cbn [snd]; first [assumption | apply good_unit; exact Logic.I]|]); constructor.
  Qed.
  Lemma good_proc (j : value) : good proc_valid (proc_of_json j).
  Proof using.
    induction j as [j N|l IH] using read_ind; [destruct j; try discriminate; exfalso; eapply N; reflexivity|]. cbn [proc_of_json].
    assert (K : Forall (good proc_valid) (kids "processors" proc_of_json l)) by (apply kids_all; exact IH).
    apply good_first. repeat constructor.
    - unfold roberta_from. apply good_bind. intros s HS. apply good_bind. intros c HC. repeat (apply good_bind; intros). apply good_ok. split; (eapply (good_need (fun t => fits 32 (snd t))); [apply good_tok_id|eassumption]).
    - unfold bert_from. apply good_bind. intros s HS. apply good_bind. intros c HC. apply good_ok. split; (eapply (good_need (fun t => fits 32 (snd t))); [apply good_tok_id|eassumption]).
    - apply good_byte_level. intros; exact Logic.I.
    - unfold template_from. apply good_bind. intros sg H1. apply good_bind. intros pr H2. apply good_bind. intros m H3. apply good_ok. cbn [proc_valid]. unfold template_valid. cbn [tc_single tc_pair tc_special tc_added_single tc_added_pair].
      apply (good_need (Forall piece_valid)) in H1; [|intros v; apply good_vec, good_piece]. apply (good_need (Forall piece_valid)) in H2; [|intros v; apply good_vec, good_piece].
      apply (good_need specials_valid) in H3; [|apply good_specials]. destruct H3. auto 10.
    - apply good_typed. apply good_bind. intros cs C. apply good_ok. apply (good_nested _ _ _ _ K) in C. apply all_of_forall. exact C.
  Qed.
End load.
