(** What a user expects of the constructor of the Unigram trainer. *)
From Coq Require Import ZArith String.
From Verif Require Import Base StrBytes AMap AddedModel PySettingsModel ModelFilesModel PyTrainerModel PyTrainerSpec PyUniTrainerModel.

(** What the arguments say of an attribute. *)
Definition u_says {W T} (means : uval W -> T -> Prop) (kw : list (str * uval W)) (x : string) (default v : T) : Prop :=
  match aget str_eqb (key x) kw with Some a => means a v | None => v = default end.
(** A value that is no float. *)
Definition plainly {W T} (means : tval -> T -> Prop) (a : uval W) (v : T) : Prop := exists t, a = UPlain t /\ means t v.
Definition number32 (t : tval) (n : N) : Prop := number t n /\ (n < 2 ^ 32)%N.
(** A float, or the one of an integer. *)
Definition a_float {W} (of_int : Z -> option W) (a : uval W) (w : W) : Prop :=
  a = UFloat w \/ (exists z, a = UPlain (TInt z) /\ of_int z = Some w) \/
  (a = UPlain (TBool true) /\ of_int 1%Z = Some w) \/ (a = UPlain (TBool false) /\ of_int 0%Z = Some w).
Definition uni_says_with {W} (alphabet : tval -> list char -> Prop) (of_int : Z -> option W) (st : token_store) (kw : list (str * uval W)) (c c' : uni_trainer W) : Prop :=
  u_says (plainly number32) kw "vocab_size" (ut_vocab c) (ut_vocab c') /\
  u_says (plainly flag) kw "show_progress" (ut_show c) (ut_show c') /\
  u_says (plainly number32) kw "n_sub_iterations" (ut_iterations c) (ut_iterations c') /\
  u_says (a_float of_int) kw "shrinking_factor" (ut_shrinking c) (ut_shrinking c') /\
  u_says (plainly (none_or a_text)) kw "unk_token" (ut_unk c) (ut_unk c') /\
  u_says (plainly number) kw "max_piece_length" (ut_piece c) (ut_piece c') /\
  u_says (plainly number) kw "seed_size" (ut_seed c) (ut_seed c') /\
  u_says (plainly alphabet) kw "initial_alphabet" (ut_alphabet c) (ut_alphabet c') /\
  u_says (plainly (special_list st)) kw "special_tokens" (ut_tokens c) (ut_tokens c').
Definition uni_says {W} := @uni_says_with W first_chars.
(** The documented defaults, and a million seed pieces. *)
Definition uni_defaults {W} (three_quarters : W) : uni_trainer W := {|
  ut_vocab := 8000; ut_show := true; ut_tokens := []; ut_alphabet := []; ut_shrinking := three_quarters; ut_unk := None; ut_piece := 16;
  ut_iterations := 2; ut_seed := 1000000 |}.
(** The objects that the argument names. *)
Definition uni_listed {W} (kw : list (str * uval W)) : list elem :=
  match aget str_eqb (key "special_tokens") kw with Some (UPlain (TList l)) => l | _ => [] end.
