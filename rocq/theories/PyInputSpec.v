(** What the inputs of the Python bindings mean, as documented in
    /repo/bindings/python/py_src/tokenizers/__init__.py:19-60. *)
From Verif Require Import Base StrBytes Utf8 TokenizerModel PyInputModel.

(** A text: a [str] that is valid Unicode. *)
Inductive says_text : pyobj -> str -> Prop :=
| say_str s : Forall (fun c => is_scalar c = true) s -> says_text (PyStr s) s.
(** Words: a list or tuple of texts (an array of dtype [object] of texts is accepted
    as well). *)
Inductive says_words : pyobj -> list str -> Prop :=
| say_list l ws : Forall2 says_text l ws -> says_words (PyList l) ws
| say_tuple l ws : Forall2 says_text l ws -> says_words (PyTuple l) ws
| say_array l ws : Forall2 says_text l ws -> says_words (PyArrayO l) ws.
(** A sequence: a text, or words if [is_pretokenized]. *)
Inductive says_sequence : bool -> pyobj -> input_sequence -> Prop :=
| say_raw o s : says_text o s -> says_sequence false o (Raw s)
| say_words o ws : says_words o ws -> says_sequence true o (PreTokenized ws).
(** An input: a sequence, or a tuple or list of two sequences. *)
Inductive says_input (pre : bool) : pyobj -> encode_input -> Prop :=
| say_single o x : says_sequence pre o x -> says_input pre o (Single x)
| say_pair a b x y : says_sequence pre a x -> says_sequence pre b y -> says_input pre (PyTuple [a; b]) (Dual x y)
| say_two a b x y : says_sequence pre a x -> says_sequence pre b y -> says_input pre (PyList [a; b]) (Dual x y).

(** Objects that are no arrays, and hold none. *)
Inductive no_arrays : pyobj -> Prop :=
| na_str s : no_arrays (PyStr s)
| na_list l : Forall no_arrays l -> no_arrays (PyList l)
| na_tuple l : Forall no_arrays l -> no_arrays (PyTuple l)
| na_other : no_arrays PyOther.

(** A list or tuple of two texts. *)
Definition two_texts (o : pyobj) : Prop := exists s t, o = PyList [PyStr s; PyStr t] \/ o = PyTuple [PyStr s; PyStr t].
