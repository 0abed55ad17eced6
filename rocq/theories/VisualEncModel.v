(** What the visualizer takes of an encoding.
    Source: /repo/bindings/python/py_src/tokenizers/tools/visualizer.py:378-384 and
    /repo/bindings/python/src/encoding.rs ([token_to_chars]: the offsets only). *)
From Verif Require Import Base StrBytes EncodingModel VisualModel.

Definition encoding_tokens (e : encoding) : list shown_token :=
  map (fun it => (snd it, option_map snd (token_to_chars e (fst it)))) (combine (seq 0 (length (tokens e))) (tokens e)).
