(** Model of the constructor of the [UnigramTrainer] of the Python bindings.
    Sources: /repo/bindings/python/src/trainers.rs:934-991,
    /repo/tokenizers/src/models/unigram/trainer.rs (the builder). *)
From Coq Require Import ZArith String.
From Verif Require Import Base StrBytes AMap AddedModel PySettingsModel ModelFilesModel PyModelModel PyTrainerModel.

Section uni.
  (** Floating-point numbers: those of Python's integers that have one, and 0.75. *)
  Context {W : Type} (of_int : Z -> option W) (three_quarters : W).

  (** A Python object: a float or any other one. *)
  Inductive uval := UFloat (w : W) | UPlain (v : tval).
  Definition plain_val (a : uval) : tval := match a with UFloat _ => TObject | UPlain v => v end.

  (** [UnigramTrainer] but for its words, with the defaults of its builder. *)
  Record uni_trainer := mkUniTrainer {
    ut_show : bool; ut_vocab : N; ut_iterations : N; ut_shrinking : W; ut_tokens : list added_token; ut_alphabet : list char;
    ut_unk : option str; ut_piece : N; ut_seed : N }.
  Definition ut0 : uni_trainer := mkUniTrainer true 8000 2 three_quarters [] [] None 16 1000000.

  Definition t_num32 (v : tval) : res pm_error N :=
    let! n := t_num v in if N.ltb n (2 ^ 32) then Ok n else Err PType.
  Definition t_float (a : uval) : res pm_error W :=
    let int z := match of_int z with Some w => Ok w | None => Err PType end in
    match a with
    | UFloat w => Ok w
    | UPlain (TInt z) => int z
    | UPlain (TBool b) => int (if b then 1 else 0)%Z
    | _ => Err PType
    end.

  Definition uni_field (c : uni_trainer) (k : str) (a : uval) : res pm_error uni_trainer :=
    let '(mkUniTrainer sh vo it fa sp al un pi se) := c in let v := plain_val a in
    if str_eqb k (key "vocab_size") then let! x := t_num32 v in Ok (mkUniTrainer sh x it fa sp al un pi se)
    else if str_eqb k (key "show_progress") then let! x := t_bool v in Ok (mkUniTrainer x vo it fa sp al un pi se)
    else if str_eqb k (key "n_sub_iterations") then let! x := t_num32 v in Ok (mkUniTrainer sh vo x fa sp al un pi se)
    else if str_eqb k (key "shrinking_factor") then let! x := t_float a in Ok (mkUniTrainer sh vo it x sp al un pi se)
    else if str_eqb k (key "unk_token") then let! x := t_option t_str v in Ok (mkUniTrainer sh vo it fa sp al x pi se)
    else if str_eqb k (key "max_piece_length") then let! x := t_num v in Ok (mkUniTrainer sh vo it fa sp al un x se)
    else if str_eqb k (key "seed_size") then let! x := t_num v in Ok (mkUniTrainer sh vo it fa sp al un pi x)
    else if str_eqb k (key "initial_alphabet") then let! x := t_alphabet_new v in Ok (mkUniTrainer sh vo it fa sp x un pi se)
    else Ok c.
  Definition uni_tokens (c : uni_trainer) (sp : list added_token) : uni_trainer :=
    mkUniTrainer (ut_show c) (ut_vocab c) (ut_iterations c) (ut_shrinking c) sp (ut_alphabet c) (ut_unk c) (ut_piece c) (ut_seed c).
  Definition uni_setting (st : token_store) (c : uni_trainer) (k : str) (a : uval) : token_store * res pm_error uni_trainer :=
    if str_eqb k (key "special_tokens") then
      let '(st', r) := t_specials st (plain_val a) in (st', let! sp := r in Ok (uni_tokens c sp))
    else (st, uni_field c k a).
  Fixpoint uni_settings (st : token_store) (c : uni_trainer) (kw : list (str * uval)) : token_store * res pm_error uni_trainer :=
    match kw with
    | [] => (st, Ok c)
    | (k, a) :: kw' =>
        let '(st', r) := uni_setting st c k a in
        match r with Ok c' => uni_settings st' c' kw' | Err e => (st', Err e) | Panic => (st', Panic) end
    end.
  Definition uni_new (st : token_store) (kw : list (str * uval)) : token_store * res pm_error uni_trainer := uni_settings st ut0 kw.
End uni.
Arguments uval : clear implicits.
Arguments uni_trainer : clear implicits.
