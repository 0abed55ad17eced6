(** Model of /repo/tokenizers/src/models/unigram/model.rs and lattice.rs.
    Scores ([f64]) are any type with an addition and a comparison; the random
    generator, the weights of the samples and the order of the heap are
    arguments.  The cache is CacheModel.v.  Ids do not exceed [u32]. *)
From Verif Require Import Base StrBytes AMap Utf8 EncodingModel BpeWordModel BpeModel TrieModel.

(** [UnigramError], model.rs:79-87. *)
Inductive uni_error := EEmptyVocabulary | EUnkIdNotInVocabulary | EMissingUnkId.

(** The arithmetic of scores: [0.0], [f64::INFINITY], [+], [>] and [- K_UNK_PENALTY]. *)
Record arith (W : Type) := mkArith {
  a_zero : W; a_inf : W; a_add : W -> W -> W; a_gtb : W -> W -> bool; a_pen : W -> W }.
Arguments mkArith {W}.
Arguments a_zero {W}.
Arguments a_inf {W}.
Arguments a_add {W}.
Arguments a_gtb {W}.
Arguments a_pen {W}.

Section scores.
  Context {W : Type} (A : arith W).
  Notation zero := (a_zero A).
  Notation infinity := (a_inf A).
  Notation add := (a_add A).
  Notation gtb := (a_gtb A).
  Notation penalise := (a_pen A).

  (** [Unigram], model.rs:19-35.  [fuse_unk] is false and [is_optimized] is
      false only in the crate's tests. *)
  Record unigram := mkUni {
    u_ids : list (str * N); u_vocab : list (str * W); u_trie : tnode; u_min : W;
    u_unk : option N; u_bos : N; u_eos : N; u_fuse : bool; u_fallback : bool }.

  (** The loop of [Unigram::from], model.rs:124-131. *)
  Fixpoint from_loop (id : N) (vocab : list (str * W)) (ids : list (str * N)) (trie : tnode) (min_score : W) : list (str * N) * tnode * W :=
    match vocab with
    | [] => (ids, trie, min_score)
    | (token, score) :: vocab' =>
        from_loop (id + 1) vocab' (aset str_eqb token id ids) (trie_push trie (encode_utf8 token))
          (if gtb min_score score then score else min_score)
    end.

  (** [Unigram::from], model.rs:103-151. *)
  Definition uni_from (vocab : list (str * W)) (unk : option N) (byte_fallback : bool) : res uni_error unigram :=
    let n := N.of_nat (length vocab) in
    let build :=
      let '(ids, trie, min_score) := from_loop 0 vocab [] tnode0 infinity in
      Ok (mkUni ids vocab trie min_score unk (n + 1) (n + 2) true byte_fallback) in
    match unk with
    | Some k =>
        if is_nil vocab then Err EEmptyVocabulary
        else if N.leb n k then Err EUnkIdNotInVocabulary
        else build
    | None => build
    end.

  (** [unk_score], model.rs:168, 276. *)
  Definition unk_score (m : unigram) : W := penalise (u_min m).

  (** [self.vocab[id]]. *)
  Definition u_item (m : unigram) (id : N) : option (str * W) := nth_error (u_vocab m) (N.to_nat id).

  (** ** encode_optimized *)

  (** [BestPathNode], model.rs:259-275. *)
  Record bnode := mkB { bn_id : N; bn_score : W; bn_start : option nat }.
  Definition bnode0 : bnode := mkB 0 zero None.

  (** Replacing the node at a position if there was none or the candidate is
      better, model.rs:297-304 and 311-318; the id may be missing. *)
  Definition relax (nodes : list bnode) (key_pos : nat) (candidate : W) (start : nat) (id : res uni_error N) : res uni_error (list bnode) :=
    let! target := of_option (nth_error nodes key_pos) in
    if match bn_start target with None => true | Some _ => gtb candidate (bn_score target) end then
      let! i := id in
      Ok (upd nodes key_pos (fun _ => mkB i candidate (Some start)))
    else Ok nodes.

  (** The loop over the tokens that start here, model.rs:284-308. *)
  Fixpoint opt_tokens (m : unigram) (start mblen : nat) (till_here : W) (toks : list (list N)) (nodes : list bnode) (single : bool)
    : res uni_error (list bnode * bool) :=
    match toks with
    | [] => Ok (nodes, single)
    | tok_bytes :: toks' =>
        let key_pos := start + length tok_bytes in
        let! token := of_option (from_utf8 tok_bytes) in
        let! id := of_option (aget str_eqb token (u_ids m)) in
        let! item := of_option (u_item m id) in
        let! nodes' := relax nodes key_pos (add (snd item) till_here) start (Ok id) in
        opt_tokens m start mblen till_here toks' nodes' (single || (key_pos - start =? mblen))
    end.

  (** The loop over the positions, model.rs:280-321; the rest of the sentence
      stands for [sentence\[starts_at..\]]. *)
  Fixpoint opt_loop (m : unigram) (rest : str) (start : nat) (nodes : list bnode) : res uni_error (list bnode) :=
    match rest with
    | [] => Ok nodes
    | c :: rest' =>
        let! here := of_option (nth_error nodes start) in
        let mblen := len_utf8 c in
        let! r := opt_tokens m start mblen (bn_score here) (common_prefix_search (u_trie m) (encode_utf8 rest)) nodes false in
        let '(nodes1, single) := r in
        let! nodes2 :=
          if single then Ok nodes1
          else relax nodes1 (start + mblen) (add (unk_score m) (bn_score here)) start
                 (match u_unk m with Some i => Ok i | None => Err EMissingUnkId end) in
        opt_loop m rest' (start + mblen) nodes2
    end.

  Definition is_unk (m : unigram) (id : N) : bool := match u_unk m with Some k => N.eqb id k | None => false end.

  (** [token.reverse(); results.push(token.concat())] if there is one, model.rs:331-335, 340-343. *)
  Definition flush (token : list str) (results : list str) : list str :=
    if is_nil token then results else results ++ [concat (rev token)].

  (** Walking back, model.rs:322-345; [fuel] iterations. *)
  Fixpoint opt_back (fuel : nat) (m : unigram) (s : str) (nodes : list bnode) (ends_at : nat) (token results : list str) : res uni_error (list str) :=
    match fuel with
    | O => Panic
    | S fuel' =>
        if 0 <? ends_at then
          let! node := of_option (nth_error nodes ends_at) in
          let! start := of_option (bn_start node) in
          let! piece := of_option (str_get s start ends_at) in
          if u_fuse m && is_unk m (bn_id node) then opt_back fuel' m s nodes start (token ++ [piece]) results
          else opt_back fuel' m s nodes start [] (flush token results ++ [piece])
        else Ok (rev (flush token results))
    end.

  (** [encode_optimized], model.rs:256-347. *)
  Definition encode_optimized (m : unigram) (s : str) : res uni_error (list str) :=
    let size := blen s in
    let! nodes := opt_loop m s 0 (repeat bnode0 (S size)) in
    opt_back (S size) m s nodes size [] [].

  (** ** Lattice *)

  (** [Node], lattice.rs:85-96; references are indices into the nodes ([node_id]). *)
  Record lnode := mkLn { ln_id : N; ln_pos : nat; ln_len : nat; ln_prev : option nat; ln_back : W; ln_score : W }.
  Definition lnode_new (id : N) (pos len : nat) (score : W) : lnode := mkLn id pos len None zero score.

  (** [Lattice], lattice.rs:52-60. *)
  Record lattice := mkLat { la_sentence : str; la_nodes : list lnode; la_begin : list (list nat); la_end : list (list nat) }.

  (** [Lattice::from], lattice.rs:134-163. *)
  Definition lat_from (s : str) (bos eos : N) : lattice :=
    let len := blen s in
    let empty := repeat (@nil nat) (S len) in
    mkLat s [lnode_new bos 0 0 zero; lnode_new eos len 0 zero]
      (upd empty len (fun l => l ++ [1])) (upd empty 0 (fun l => l ++ [0])).

  (** [insert], lattice.rs:165-173. *)
  Definition lat_insert (la : lattice) (pos len : nat) (score : W) (id : N) : res uni_error lattice :=
    let node_id := length (la_nodes la) in
    if (pos <? length (la_begin la)) && (pos + len <? length (la_end la)) then
      Ok (mkLat (la_sentence la) (la_nodes la ++ [lnode_new id pos len score])
            (upd (la_begin la) pos (fun l => l ++ [node_id])) (upd (la_end la) (pos + len) (fun l => l ++ [node_id])))
    else Panic.

  (** [populate_nodes], model.rs:167-206. *)
  Fixpoint pop_tokens (m : unigram) (pos mblen : nat) (toks : list (list N)) (la : lattice) (single : bool) : res uni_error (lattice * bool) :=
    match toks with
    | [] => Ok (la, single)
    | tok_bytes :: toks' =>
        let n := length tok_bytes in
        let! tok := of_option (from_utf8 tok_bytes) in
        let! id := of_option (aget str_eqb tok (u_ids m)) in
        let! item := of_option (u_item m id) in
        if negb (str_eqb (fst item) tok) then Panic
        else
          let! la' := lat_insert la pos n (snd item) id in
          pop_tokens m pos mblen toks' la' (single || (n =? mblen))
    end.
  Fixpoint pop_loop (m : unigram) (rest : str) (pos : nat) (la : lattice) : res uni_error lattice :=
    match rest with
    | [] => Ok la
    | c :: rest' =>
        let mblen := len_utf8 c in
        let! r := pop_tokens m pos mblen (common_prefix_search (u_trie m) (encode_utf8 rest)) la false in
        let '(la1, single) := r in
        let! la2 :=
          if single then Ok la1
          else match u_unk m with
               | Some unk => lat_insert la1 pos mblen (unk_score m) unk
               | None => Ok la1
               end in
        pop_loop m rest' (pos + mblen) la2
    end.
  Definition populate_nodes (m : unigram) (s : str) : res uni_error lattice :=
    pop_loop m s 0 (lat_from s (u_bos m) (u_eos m)).

  (** The best node that ends where [rnode] begins, lattice.rs:184-193. *)
  Fixpoint vit_best (nodes : list lnode) (rscore : W) (ends : list nat) (best : option (nat * W)) : res uni_error (option (nat * W)) :=
    match ends with
    | [] => Ok best
    | l :: ends' =>
        let! lnode := of_option (nth_error nodes l) in
        let score := add (ln_back lnode) rscore in
        vit_best nodes rscore ends'
          (match best with
           | None => Some (l, score)
           | Some (b, best_score) => if gtb score best_score then Some (l, score) else Some (b, best_score)
           end)
    end.

  (** The nodes that begin at a position, lattice.rs:182-202; [false]: the
      search stops and the result is the empty path. *)
  Fixpoint vit_pos (begins ends : list nat) (nodes : list lnode) : res uni_error (list lnode * bool) :=
    match begins with
    | [] => Ok (nodes, true)
    | r :: begins' =>
        let! rnode := of_option (nth_error nodes r) in
        let cleared := upd nodes r (fun n => mkLn (ln_id n) (ln_pos n) (ln_len n) None (ln_back n) (ln_score n)) in
        let! best := vit_best cleared (ln_score rnode) ends None in
        match best with
        | None => Ok (cleared, false)
        | Some (b, score) =>
            vit_pos begins' ends (upd cleared r (fun n => mkLn (ln_id n) (ln_pos n) (ln_len n) (Some b) score (ln_score n)))
        end
    end.

  (** The loop over the positions, lattice.rs:177-208. *)
  Fixpoint vit_loop (la : lattice) (rest : str) (pos : nat) (nodes : list lnode) : res uni_error (list lnode * bool) :=
    let! begins := of_option (nth_error (la_begin la) pos) in
    let! ends := of_option (nth_error (la_end la) pos) in
    if is_nil begins then Ok (nodes, false)
    else
      let! r := vit_pos begins ends nodes in
      let '(nodes', ok) := r in
      if ok then
        match rest with
        | [] => Ok (nodes', true)
        | c :: rest' => vit_loop la rest' (pos + len_utf8 c) nodes'
        end
      else Ok (nodes', false).

  (** Walking back, lattice.rs:216-222.  The number of iterations is enough for
      nodes of positive length; with nodes of length 0, which the public
      [insert] accepts, the code may not end. *)
  Fixpoint vit_back (fuel : nat) (nodes : list lnode) (node : nat) (acc : list nat) : res uni_error (list nat) :=
    match fuel with
    | O => Panic
    | S fuel' =>
        let! n := of_option (nth_error nodes node) in
        match ln_prev n with
        | None => Ok (rev acc)
        | Some p => vit_back fuel' nodes p (acc ++ [node])
        end
    end.

  Definition eos_node (la : lattice) : res uni_error nat :=
    let! l := of_option (nth_error (la_begin la) (blen (la_sentence la))) in of_option (hd_error l).
  Definition bos_node (la : lattice) : res uni_error nat :=
    let! l := of_option (nth_error (la_end la) 0) in of_option (hd_error l).

  (** [viterbi], lattice.rs:175-225: the nodes with their scores and the path. *)
  Definition viterbi (la : lattice) : res uni_error (list lnode * list nat) :=
    let! r := vit_loop la (la_sentence la) 0 (la_nodes la) in
    let '(nodes, ok) := r in
    if ok then
      let! eos := eos_node la in
      let! n := of_option (nth_error nodes eos) in
      match ln_prev n with
      | None => Ok (nodes, [])
      | Some p => let! path := vit_back (S (blen (la_sentence la))) nodes p [] in Ok (nodes, path)
      end
    else Ok (nodes, []).

  (** [piece], lattice.rs:227-229. *)
  Definition lat_piece (la : lattice) (node : nat) : res uni_error str :=
    let! n := of_option (nth_error (la_nodes la) node) in
    of_option (str_get (la_sentence la) (ln_pos n) (ln_pos n + ln_len n)).

  (** [sample], lattice.rs:384-422, for any choice of an index at each step.
      Taking an index from no candidates is the panic of [WeightedIndex]. *)
  Fixpoint sample_loop (fuel : nat) (la : lattice) (pick : nat -> nat) (bos_id : N) (node : nat) (acc : list nat) : res uni_error (list nat) :=
    match fuel with
    | O => Panic
    | S fuel' =>
        let! n := of_option (nth_error (la_nodes la) node) in
        let! ends := of_option (nth_error (la_end la) (ln_pos n)) in
        let! next := of_option (nth_error ends (pick (length acc))) in
        let! n' := of_option (nth_error (la_nodes la) next) in
        if N.eqb (ln_id n') bos_id then Ok (rev acc)
        else sample_loop fuel' la pick bos_id next (acc ++ [next])
    end.
  Definition lat_sample (la : lattice) (pick : nat -> nat) : res uni_error (list nat) :=
    if blen (la_sentence la) =? 0 then Ok []
    else
      let! bos := bos_node la in
      let! b := of_option (nth_error (la_nodes la) bos) in
      let! eos := eos_node la in
      sample_loop (S (blen (la_sentence la))) la pick (ln_id b) eos [].

  (** [Hypothesis], lattice.rs:12-17; [next] is the list of the nodes that follow. *)
  Record hypothesis := mkHyp { h_node : nat; h_next : list nat; h_fx : W; h_gx : W }.

  (** Shrinking the agenda, lattice.rs:282-291. *)
  Fixpoint take_best (pop : list hypothesis -> option (hypothesis * list hypothesis)) (k : nat) (agenda : list hypothesis) : res uni_error (list hypothesis) :=
    match k with
    | O => Ok []
    | S k' =>
        let! r := of_option (pop agenda) in
        let! l := take_best pop k' (snd r) in
        Ok (fst r :: l)
    end.

  (** The hypotheses that extend [top] to the left, lattice.rs:269-276. *)
  Fixpoint extend (nodes : list lnode) (top : hypothesis) (ends : list nat) : res uni_error (list hypothesis) :=
    match ends with
    | [] => Ok []
    | l :: ends' =>
        let! n := of_option (nth_error nodes l) in
        let! hs := extend nodes top ends' in
        Ok (mkHyp l (h_node top :: h_next top) (add (ln_back n) (h_gx top)) (add (ln_score n) (h_gx top)) :: hs)
    end.

  (** The loop of [nbest], lattice.rs:253-294; the heap is a bag with [pop]. *)
  Fixpoint nbest_loop (fuel : nat) (la : lattice) (nodes : list lnode) (bos_id : N) (n : nat)
    (pop : list hypothesis -> option (hypothesis * list hypothesis)) (agenda : list hypothesis) (hyps : list (list nat)) : res uni_error (list (list nat)) :=
    match fuel with
    | O => Panic
    | S fuel' =>
        if is_nil agenda then Ok hyps
        else
          let! r := of_option (pop agenda) in
          let '(top, agenda') := r in
          let! node := of_option (nth_error nodes (h_node top)) in
          if N.eqb (ln_id node) bos_id then
            if is_nil (h_next top) then Panic
            else
              let hyps' := hyps ++ [removelast (h_next top)] in
              if length hyps' =? n then Ok hyps' else nbest_loop fuel' la nodes bos_id n pop agenda' hyps'
          else
            let! ends := of_option (nth_error (la_end la) (ln_pos node)) in
            let! new := extend nodes top ends in
            let agenda2 := agenda' ++ new in
            let! agenda3 := if N.ltb 100000 (N.of_nat (length agenda2)) then take_best pop (Nat.min 512 (n * 10)) agenda2 else Ok agenda2 in
            nbest_loop fuel' la nodes bos_id n pop agenda3 hyps
    end.

  (** [nbest], lattice.rs:238-297. *)
  Definition nbest (fuel : nat) (la : lattice) (n : nat) (pop : list hypothesis -> option (hypothesis * list hypothesis)) : res uni_error (list (list nat)) :=
    match n with
    | O => Ok []
    | 1 => let! r := viterbi la in Ok [snd r]
    | _ =>
        let! eos := eos_node la in
        let! e := of_option (nth_error (la_nodes la) eos) in
        let! r := viterbi la in
        let! bos := bos_node la in
        let! b := of_option (nth_error (fst r) bos) in
        nbest_loop fuel la (fst r) (ln_id b) n pop [mkHyp eos [] (ln_score e) (ln_score e)] []
    end.

  (** How the path is chosen, model.rs:352-356. *)
  Inductive chooser :=
  | ByViterbi
  | BySample (pick : nat -> nat)
  | ByNBest (fuel n : nat) (pop : list hypothesis -> option (hypothesis * list hypothesis)) (pick : nat).

  (** [sample_nbest], lattice.rs:431-452. *)
  Definition choose (c : chooser) (la : lattice) : res uni_error (list nat) :=
    match c with
    | ByViterbi => let! r := viterbi la in Ok (snd r)
    | BySample pick => lat_sample la pick
    | ByNBest fuel n pop pick =>
        let! paths := nbest fuel la n pop in
        match paths with
        | [] => let! r := viterbi la in Ok (snd r)
        | _ => of_option (nth_error paths pick)
        end
    end.

  (** [encode_unoptimized], model.rs:349-385. *)
  Fixpoint fuse_path (m : unigram) (la : lattice) (path : list nat) (token : str) (results : list str) : res uni_error (list str) :=
    match path with
    | [] => Ok (if is_nil token then results else results ++ [token])
    | node :: path' =>
        let! item := lat_piece la node in
        let! n := of_option (nth_error (la_nodes la) node) in
        match u_unk m with
        | None => Err EMissingUnkId
        | Some unk =>
            if N.eqb (ln_id n) unk then fuse_path m la path' (token ++ item) results
            else fuse_path m la path' [] ((if is_nil token then results else results ++ [token]) ++ [item])
        end
    end.
  Definition encode_unoptimized (m : unigram) (c : chooser) (s : str) : res uni_error (list str) :=
    let! la := populate_nodes m s in
    let! path := choose c la in
    if u_fuse m then fuse_path m la path [] [] else map_res (lat_piece la) path.

  (** [encode] without the cache, model.rs:230-254: [None] when [alpha] is
      absent or zero. *)
  Definition uni_encode (m : unigram) (sampling : option chooser) (s : str) : res uni_error (list str) :=
    if is_nil s then Ok []
    else match sampling with
         | None => encode_optimized m s
         | Some c => encode_unoptimized m c s
         end.

  (** [tokenize], model.rs:441-482. *)
  Fixpoint uni_tokens (m : unigram) (offset : nat) (pieces : list str) (acc : list token) : res uni_error (list token) :=
    match pieces with
    | [] => Ok acc
    | string :: pieces' =>
        let len := blen string in
        match aget str_eqb string (u_ids m) with
        | Some id => uni_tokens m (offset + len) pieces' (acc ++ [mkTok id string (offset, offset + len)])
        | None =>
            let bytes :=
              if u_fallback m then
                map_opt (fun byte => option_map (fun id => mkTok id (byte_token byte) (offset, offset + len)) (aget str_eqb (byte_token byte) (u_ids m))) (encode_utf8 string)
              else None in
            match bytes with
            | Some toks => uni_tokens m (offset + len) pieces' (acc ++ toks)
            | None =>
                match u_unk m with
                | None => Err EMissingUnkId
                | Some id => uni_tokens m (offset + len) pieces' (acc ++ [mkTok id string (offset, offset + len)])
                end
            end
        end
    end.
  Definition uni_tokenize (m : unigram) (sampling : option chooser) (s : str) : res uni_error (list token) :=
    let! pieces := uni_encode m sampling s in
    uni_tokens m 0 pieces [].

  (** [token_to_id] and [id_to_token], model.rs:484-490. *)
  Definition uni_token_to_id (m : unigram) (t : str) : option N := aget str_eqb t (u_ids m).
  Definition uni_id_to_token (m : unigram) (i : N) : option str := option_map fst (u_item m i).
End scores.
Arguments unigram W : clear implicits.
Arguments lattice W : clear implicits.
Arguments chooser W : clear implicits.
Arguments hypothesis W : clear implicits.
Arguments lnode W : clear implicits.
Arguments bnode W : clear implicits.
