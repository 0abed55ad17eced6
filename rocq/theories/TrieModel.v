(** Model of /repo/tokenizers/src/models/unigram/trie.rs. *)
From Verif Require Import Base AMap.

(** [Node], trie.rs:78-81; [children] is an association list. *)
Inductive tnode := TNode (leaf : bool) (children : list (N * tnode)).

(** [Node::default], trie.rs:83-90. *)
Definition tnode0 : tnode := TNode false [].

Definition t_leaf (n : tnode) : bool := match n with TNode l _ => l end.
Definition t_children (n : tnode) : list (N * tnode) := match n with TNode _ c => c end.

(** [Trie::push], trie.rs:25-31. *)
Fixpoint trie_push (n : tnode) (element : list N) : tnode :=
  match element with
  | [] => TNode true (t_children n)
  | l :: element' =>
      let child := match aget N.eqb l (t_children n) with Some c => c | None => tnode0 end in
      TNode (t_leaf n) (aset N.eqb l (trie_push child element') (t_children n))
  end.

(** [common_prefix_search] iterated to its end, trie.rs:33-67: all the items of
    the [TrieIterator] up to its first [None]. *)
Fixpoint trie_search (n : tnode) (prefix : list N) (it : list N) : list (list N) :=
  match it with
  | [] => []
  | l :: it' =>
      match aget N.eqb l (t_children n) with
      | None => []
      | Some c => if t_leaf c then (prefix ++ [l]) :: trie_search c (prefix ++ [l]) it'
                  else trie_search c (prefix ++ [l]) it'
      end
  end.

(** [TrieBuilder] pushed with several elements and built, trie.rs:4-17. *)
Definition trie_of (elements : list (list N)) : tnode := fold_left trie_push elements tnode0.
Definition common_prefix_search (t : tnode) (s : list N) : list (list N) := trie_search t [] s.
