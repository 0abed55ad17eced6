(** Specification of the settings of parallelism. *)
From Coq Require Import String Ascii.
From Verif Require Import Base ParallelModel.

(** A process as it starts. *)
Definition fresh (v : env_value) : process := mkProcess 0%N false v.
Definition starts (programs : list (list command)) : list thread := map (fun c => mkThread c Outside) programs.

(** The same letter, up to the case of the ASCII letters. *)
Definition same_letter (a b : char) : Prop :=
  a = b \/ (65 <= a <= 90 /\ b = a + 32)%N.
(** The documented values that mean "off" (parallelism.rs:68). *)
Definition documented : list string := [""; "false"; "f"; "off"; "no"; "n"; "0"]%string.
Definition says_off (s : str) : Prop := exists w, In w documented /\ Forall2 same_letter s (map N_of_ascii (list_ascii_of_string w)).

Definition is_set (c : command) : Prop := exists b, c = SetTo b.
Definition sets_on (c : command) : Prop := c = SetTo true.

(** One thread on its own: the last setting counts, otherwise the environment. *)
Fixpoint choices (setting : option bool) (v : env_value) (l : list command) : list event :=
  match l with
  | [] => []
  | SetTo b :: l' => choices (Some b) v l'
  | EnvTo v' :: l' => choices setting v' l'
  | Iterate k c :: l' =>
      Started k (c && match setting with Some b => b | None => env_parallelism v end)%bool :: choices setting v l'
  end.
(** The setting and the environment after them. *)
Fixpoint settled (setting : option bool) (v : env_value) (l : list command) : option bool * env_value :=
  match l with
  | [] => (setting, v)
  | SetTo b :: l' => settled (Some b) v l'
  | EnvTo v' :: l' => settled setting v' l'
  | Iterate _ _ :: l' => settled setting v l'
  end.
