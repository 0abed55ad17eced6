(** Model of the file of a whole tokenizer, and of the tokenizer it describes.
    Sources: /repo/tokenizers/src/tokenizer/{mod,serialization,added_vocabulary}.rs,
    utils/{truncation,padding}.rs, models/mod.rs.
    JSON texts are their values (see ModelFilesModel and ComponentFilesModel). *)
From Coq Require Import String.
From Verif Require Import Base StrBytes AMap EncodingModel TruncPadModel NormModel PreTokModel BpeWordModel BpeModel RoundTripModel WordPieceModel UnigramModel AddedModel ProcessorsModel NormalizersModel SpmTripModel DecodersModel PreTokenizersModel TokenizerModel ModelFilesModel ComponentFilesModel.

(** What is external to the tokenizer: see the files of the fields. *)
Record platform (W : Type) := mkPlatform {
  pf_arith : arith W; pf_floats : floats W;
  pf_by_rank : list ((N * N) * (N * N)) -> list ((N * N) * (N * N));
  pf_by_key : list (str * special_token) -> list (str * special_token);
  pf_engines : engines; pf_norm : NormalizersModel.tables; pf_pre : PreTokenizersModel.tables;
  pf_space : char -> bool; pf_word : char -> bool; pf_blank : char -> bool;
  pf_build : list (str * N) -> bool;
  pf_pop : list merge -> option (merge * list merge); pf_draws : str -> nat -> bool }.
Arguments mkPlatform {W}.
Arguments pf_arith {W}.
Arguments pf_floats {W}.
Arguments pf_by_rank {W}.
Arguments pf_by_key {W}.
Arguments pf_engines {W}.
Arguments pf_norm {W}.
Arguments pf_pre {W}.
Arguments pf_space {W}.
Arguments pf_word {W}.
Arguments pf_blank {W}.
Arguments pf_build {W}.
Arguments pf_pop {W}.
Arguments pf_draws {W}.

(** [TokenizerImpl], mod.rs:544-558, with the components as data. *)
Record config (W : Type) := mkConfig {
  g_normalizer : option norm_config; g_pre : option pre_config; g_model : @model W;
  g_post : option proc_config; g_decoder : option dec_config; g_added : added_vocab;
  g_truncation : option trunc_params; g_padding : option pad_params }.
Arguments mkConfig {W}.
Arguments g_normalizer {W}.
Arguments g_pre {W}.
Arguments g_model {W}.
Arguments g_post {W}.
Arguments g_decoder {W}.
Arguments g_added {W}.
Arguments g_truncation {W}.
Arguments g_padding {W}.

Section tokenizer.
  Context {W : Type} (P : platform W).
  Notation value := (json W).
  Notation "'result' A" := (res file_error A) (at level 10).

  (** ** The tokenizer *)
  (** [token_to_id], [id_to_token], [get_vocab], [get_vocab_size] of [ModelWrapper],
      models/mod.rs:155-189, and of its variants (unigram/model.rs:435-441, 479-485,
      wordpiece/mod.rs:216-222, 285-291, wordlevel/mod.rs:180-194). *)
  Definition model_vocabulary (m : @model W) : model_vocab :=
    match m with
    | MBpe m => bpe_vocabulary m
    | MWordPiece m => mkModel (wp_token_to_id m) (wp_id_to_token m) (w_vocab m) (List.length (w_vocab m))
    | MWordLevel m => mkModel (wl_token_to_id m) (wl_id_to_token m) (l_vocab m) (List.length (l_vocab m))
    | MUnigram m => mkModel (uni_token_to_id m) (uni_id_to_token m) (u_ids m) (List.length (u_vocab m))
    end.
  Definition boxed {E A} (r : res E A) : res unit A := match r with Ok a => Ok a | Err _ => Err tt | Panic => Panic end.
  (** [tokenize] of [ModelWrapper], models/mod.rs:146-153.  The sampling of Unigram
      ([nbest_size] and [alpha], which are not saved) is off. *)
  Definition model_tokenize (m : @model W) (s : str) : res unit (list token) :=
    match m with
    | MBpe m => bpe_model (pf_pop P) m (pf_draws P) s
    | MWordPiece m => boxed (wp_tokenize m s)
    | MWordLevel m => boxed (wl_tokenize m s)
    | MUnigram m => boxed (uni_tokenize (pf_arith P) m None s)
    end.

  (** The tokenizer of TokenizerModel that a configuration is. *)
  Definition runtime (g : config W) : tokenizer :=
    mkTokenizer (pf_space P) (pf_word P) (pf_blank P)
      (match g_normalizer g with Some c => run_normalizer (pf_norm P) (norm_of (pf_engines P) c) | None => fun ns => ns end)
      (option_map (fun c => pre_tokenize (pf_pre P) (pre_of (pf_engines P) c)) (g_pre g))
      (model_tokenize (g_model g)) (option_map proc_of (g_post g)) (g_added g) (g_truncation g) (g_padding g).
  (** [decode], mod.rs:935-953. *)
  Definition decode_ids (g : config W) (skip : bool) (ids : list N) : res unit str :=
    AddedModel.decode (model_vocabulary (g_model g)) (g_added g)
      (option_map (fun c => DecodersModel.decode_tokens (dec_of (pf_engines P) c)) (g_decoder g)) skip ids.

  (** [TokenizerImpl::new], mod.rs:569-583. *)
  Definition tokenizer_new (m : @model W) : config W := mkConfig None None m None None av_new None None.
  (** What the normalizer makes of the content of a token, added_vocabulary.rs:315-323;
      [None] when it fails.  (A panic of the normalizer is an error here.) *)
  Definition content_norm (c : norm_config) (s : str) : option str :=
    match normalize (pf_norm P) (norm_of (pf_engines P) c) (nfrom s) with Ok ns => Some (n_normalized ns) | _ => None end.
  Definition norm_fun (g : config W) : option (str -> option str) := option_map content_norm (g_normalizer g).
  Definition set_added (g : config W) (av : added_vocab) : config W :=
    mkConfig (g_normalizer g) (g_pre g) (g_model g) (g_post g) (g_decoder g) av (g_truncation g) (g_padding g).
  (** [with_normalizer], mod.rs:593-598; false: an error is returned. *)
  Definition with_normalizer (g : config W) (n : option norm_config) : config W * bool :=
    let g := mkConfig n (g_pre g) (g_model g) (g_post g) (g_decoder g) (g_added g) (g_truncation g) (g_padding g) in
    let '(av, ok) := av_refresh_normalized (pf_build P) (norm_fun g) (g_added g) in (set_added g av, ok).
  (** The other setters, mod.rs:605-690. *)
  Definition with_pre_tokenizer (g : config W) (p : option pre_config) : config W :=
    mkConfig (g_normalizer g) p (g_model g) (g_post g) (g_decoder g) (g_added g) (g_truncation g) (g_padding g).
  Definition with_post_processor (g : config W) (p : option proc_config) : config W :=
    mkConfig (g_normalizer g) (g_pre g) (g_model g) p (g_decoder g) (g_added g) (g_truncation g) (g_padding g).
  Definition with_decoder (g : config W) (d : option dec_config) : config W :=
    mkConfig (g_normalizer g) (g_pre g) (g_model g) (g_post g) d (g_added g) (g_truncation g) (g_padding g).
  (** [with_truncation] checks first; [get_truncation_mut] does not. *)
  Definition put_truncation (g : config W) (t : option trunc_params) : config W :=
    mkConfig (g_normalizer g) (g_pre g) (g_model g) (g_post g) (g_decoder g) (g_added g) t (g_padding g).
  Definition put_padding (g : config W) (p : option pad_params) : config W :=
    mkConfig (g_normalizer g) (g_pre g) (g_model g) (g_post g) (g_decoder g) (g_added g) (g_truncation g) p.
  (** [add_tokens] and [add_special_tokens], mod.rs:1227-1239. *)
  Definition tokenizer_add (g : config W) (ts : list added_token) : config W * option nat :=
    let '(av, n) := add_tokens (pf_build P) (model_vocabulary (g_model g)) (norm_fun g) ts (g_added g) in (set_added g av, n).
  (** [set_encode_special_tokens], mod.rs:752-754. *)
  Definition encode_special_tokens (g : config W) (b : bool) : config W := set_added g (av_set_encode_special (g_added g) b).

  (** ** Its file *)
  (** Derived for [TruncationDirection], [PaddingDirection] and [TruncationStrategy],
      truncation.rs:6-11, 52-58 and padding.rs:6-10. *)
  Definition of_direction (d : direction) : value := JStr (key (match d with DLeft => "Left" | DRight => "Right" end)).
  Definition as_direction (j : value) : result direction :=
    match j with
    | JStr s => if str_eqb s (key "Left") then Ok DLeft else if str_eqb s (key "Right") then Ok DRight else Err EFile
    | _ => Err EFile
    end.
  Definition of_strategy (s : trunc_strategy) : value :=
    JStr (key (match s with LongestFirst => "LongestFirst" | OnlyFirst => "OnlyFirst" | OnlySecond => "OnlySecond" end)).
  Definition as_strategy (j : value) : result trunc_strategy :=
    match j with
    | JStr s =>
        if str_eqb s (key "LongestFirst") then Ok LongestFirst
        else if str_eqb s (key "OnlyFirst") then Ok OnlyFirst
        else if str_eqb s (key "OnlySecond") then Ok OnlySecond
        else Err EFile
    | _ => Err EFile
    end.
  (** Derived for [TruncationParams], truncation.rs:22-29. *)
  Definition of_truncation (t : trunc_params) : value :=
    JObj [(key "direction", of_direction (tp_direction t)); (key "max_length", of_nat (tp_max_length t));
          (key "strategy", of_strategy (tp_strategy t)); (key "stride", of_nat (tp_stride t))].
  Definition as_truncation (j : value) : result trunc_params :=
    match j with
    | JObj l =>
        let! d := need_or "direction" as_direction DRight l in
        let! n := need "max_length" as_nat l in
        let! s := need "strategy" as_strategy l in
        let! k := need "stride" as_nat l in
        Ok (mkTruncParams d n s k)
    | _ => Err EFile
    end.
  (** Derived for [PaddingStrategy] and [PaddingParams], padding.rs:21-48. *)
  Definition of_pad_strategy (s : pad_strategy) : value :=
    match s with BatchLongest => JStr (key "BatchLongest") | Fixed n => JObj [(key "Fixed", of_nat n)] end.
  Definition as_pad_strategy (j : value) : result pad_strategy :=
    match j with
    | JStr s => if str_eqb s (key "BatchLongest") then Ok BatchLongest else Err EFile
    | JObj [(k, v)] => if str_eqb k (key "Fixed") then let! n := as_nat v in Ok (Fixed n) else Err EFile
    | _ => Err EFile
    end.
  Definition of_option {T} (f : T -> value) (o : option T) : value := match o with Some x => f x | None => JNull end.
  Definition of_padding (p : pad_params) : value :=
    JObj [(key "strategy", of_pad_strategy (pp_strategy p)); (key "direction", of_direction (pp_direction p));
          (key "pad_to_multiple_of", of_option of_nat (pp_multiple p)); (key "pad_id", JInt (pp_id p));
          (key "pad_type_id", JInt (pp_type_id p)); (key "pad_token", JStr (pp_token p))].
  Definition as_padding (j : value) : result pad_params :=
    match j with
    | JObj l =>
        let! s := need "strategy" as_pad_strategy l in
        let! d := need "direction" as_direction l in
        let! m := may "pad_to_multiple_of" as_nat l in
        let! i := need "pad_id" as_u32 l in
        let! t := need "pad_type_id" as_u32 l in
        let! k := need "pad_token" as_str l in
        Ok (mkPadParams s d m i t k)
    | _ => Err EFile
    end.
  (** [AddedTokenWithId], added_vocabulary.rs:573-580, with the flattened
      [AddedToken], added_vocabulary.rs:17-31. *)
  Definition of_added (it : N * added_token) : value :=
    let '(i, t) := it in
    JObj [(key "id", JInt i); (key "content", JStr (at_content t)); (key "single_word", JBool (at_single_word t));
          (key "lstrip", JBool (at_lstrip t)); (key "rstrip", JBool (at_rstrip t)); (key "normalized", JBool (at_normalized t));
          (key "special", JBool (at_special t))].
  Definition as_added (j : value) : result (N * added_token) :=
    match j with
    | JObj l =>
        let! i := need "id" as_u32 l in
        let! c := need "content" as_str l in
        let! w := need "single_word" as_bool l in
        let! a := need "lstrip" as_bool l in
        let! b := need "rstrip" as_bool l in
        let! n := need "normalized" as_bool l in
        let! s := need "special" as_bool l in
        Ok (i, mkAdded c w a b n s)
    | _ => Err EFile
    end.

  (** [Serialize for TokenizerImpl], serialization.rs:15-48. *)
  Definition tokenizer_to_json (g : config W) : result value :=
    let! m := model_to_json (pf_floats P) (pf_by_rank P) (g_model g) in
    Ok (JObj [(key "version", JStr (key "1.0")); (key "truncation", of_option of_truncation (g_truncation g));
              (key "padding", of_option of_padding (g_padding g)); (key "added_tokens", JArr (map of_added (av_save (g_added g))));
              (key "normalizer", of_option norm_to_json (g_normalizer g)); (key "pre_tokenizer", of_option pre_to_json (g_pre g));
              (key "post_processor", of_option (proc_to_json (pf_by_key P)) (g_post g));
              (key "decoder", of_option dec_to_json (g_decoder g)); (key "model", m)]).

  (** The builder and the list [tokens] of [visit_map], serialization.rs:108-113. *)
  Record parts := mkParts {
    pa_truncation : option trunc_params; pa_padding : option pad_params; pa_tokens : list (N * added_token);
    pa_normalizer : option norm_config; pa_pre : option pre_config; pa_post : option proc_config; pa_decoder : option dec_config;
    pa_model : option (@model W) }.
  Definition parts0 : parts := mkParts None None [] None None None None None.
  (** The body of the loop, serialization.rs:115-147.  A repeated field replaces the
      one before it.  The value of a field with another name is not taken, and
      serde_json, asked for the next name in front of a value, fails. *)
  Definition part (st : parts) (kv : str * value) : result parts :=
    let '(mkParts t p a n r q d m) := st in
    let '(k, v) := kv in
    if str_eqb k (key "version") then let! s := as_str v in if str_eqb s (key "1.0") then Ok st else Err EFile
    else if str_eqb k (key "truncation") then let! t := as_option as_truncation v in Ok (mkParts t p a n r q d m)
    else if str_eqb k (key "padding") then let! p := as_option as_padding v in Ok (mkParts t p a n r q d m)
    else if str_eqb k (key "added_tokens") then let! a := as_vec as_added v in Ok (mkParts t p a n r q d m)
    else if str_eqb k (key "normalizer") then let! n := as_option (norm_of_json (pf_engines P)) v in Ok (mkParts t p a n r q d m)
    else if str_eqb k (key "pre_tokenizer") then let! r := as_option (pre_of_json (pf_engines P)) v in Ok (mkParts t p a n r q d m)
    else if str_eqb k (key "model") then let! m := model_of_json (pf_arith P) (pf_floats P) v in Ok (mkParts t p a n r q d (Some m))
    else if str_eqb k (key "decoder") then let! d := as_option (dec_of_json (pf_engines P)) v in Ok (mkParts t p a n r q d m)
    else if str_eqb k (key "post_processor") then let! q := as_option proc_of_json v in Ok (mkParts t p a n r q d m)
    else Err EFile.

  (** [Deserialize for TokenizerImpl], serialization.rs:50-171: [build] needs a model
      (mod.rs:366-380) and checks nothing else; then the tokens are added in the order
      of the file.  A wrong id only makes a warning. *)
  Definition tokenizer_of_json (j : value) : result (config W) :=
    match j with
    | JObj l =>
        let! st := each_field part parts0 l in
        match pa_model st with
        | None => Err EFile
        | Some m =>
            let g := mkConfig (pa_normalizer st) (pa_pre st) m (pa_post st) (pa_decoder st) av_new (pa_truncation st) (pa_padding st) in
            match av_load (pf_build P) (model_vocabulary m) (norm_fun g) (pa_tokens st) with
            | (av, Some _) => Ok (set_added g av)
            | (_, None) => Err EFile
            end
        end
    | _ => Err EFile
    end.
End tokenizer.
