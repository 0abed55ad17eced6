(** C35: training a BPE model that has been used does not empty its cache. *)
From Coq Require Import ZArith.
From Verif Require Import Base StrBytes AMap EncodingModel BpeWordModel BpeWordSpec BpeModel BpeSpec BpeProps BpeTrainModel BpeTrainSpec BpeTrainProps CacheModel CacheSpec CacheProps.

(** The assignments at the end of [do_train] (trainer.rs:611-632) leave the field [cache] as
    it is: training is [OSet].  A model is trained, used, trained on another corpus and used
    again: the old ids are looked up in the new vocabulary. *)
Definition rt_trainer : trainer := mkTrainer 0 12 [] None [] None None None.
Definition rt_first : list (str * N) := [([104; 117; 103], 10); ([112; 117; 103], 5)]%N.
(** "ab" *)
Definition rt_small : list (str * N) := [([97; 98], 3)]%N.
(** "guhp" *)
Definition rt_other : list (str * N) := [([103; 117; 104; 112], 10)]%N.
Definition rt_calls (m m' : bpe) (s : str) : list op := [OBuild m 5; OStart 0 0 s no_draw; OFinish 0; OSet 0 m'; OStart 0 0 s no_draw].

(** Encoding a word seen before the second training panics... *)
Theorem C35_retrain_panic_refuted : exists m m' st outs st' out,
  do_train sort_count pop_first rt_trainer rt_first ex_base = Ok (m, []) /\ do_train sort_count pop_first rt_trainer rt_small m = Ok (m', []) /\
  run pop_min world0 (rt_calls m m' [104; 117; 103]%N) = Some (st, outs) /\ step pop_min st (OFinish 0) = Some (st', Some out) /\
  o_tokens out = Panic /\ bpe_tokenize pop_min m' no_draw [104; 117; 103]%N = Ok [].
Proof. eexists _, _, _, _, _, _. repeat (split; [vm_compute; reflexivity|]). vm_compute. reflexivity. Qed.
(** ... or gives tokens that have nothing to do with it: "hug" is encoded as "hp". *)
Theorem C35_retrain_refuted : exists m m' st outs st' out toks,
  do_train sort_count pop_first rt_trainer rt_first ex_base = Ok (m, []) /\ do_train sort_count pop_first rt_trainer rt_other m = Ok (m', []) /\
  run pop_min world0 (rt_calls m m' [104; 117; 103]%N) = Some (st, outs) /\ step pop_min st (OFinish 0) = Some (st', Some out) /\
  o_tokens out = Ok toks /\ map t_value toks = [[104; 112]%N] /\ bpe_tokenize pop_min m' no_draw [104; 117; 103]%N <> Ok toks.
Proof. eexists _, _, _, _, _, _, _. repeat (split; [vm_compute; reflexivity|]). vm_compute. discriminate. Qed.
