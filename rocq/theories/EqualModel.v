(** * Model of the hand-written and derived [Hash] of src/trie.rs, and of [Hash] and
    [PartialEq] for [Names].

    A hasher is the list of words it is given. *)

From Verif Require Import Base RazMetaModel TrieModel.

Section Trie.
Context {K V : Type} (name_words : name -> list N).

(** Hash for Trie and TrieBin: derived (src/trie.rs:47, 61), the number of the
    constructor and then the fields; for TrieLeaf only its hash (70-77). Children are
    hashed through [Art]: their contents. The hash of a [Name] is a parameter. *)
Fixpoint t_words (t : trie K V) : list N :=
  match t with
  | TEmpty => [0%N]
  | TLeaf h _ => [1%N; h]
  | TBin b n l r => [2%N; b_bits b; b_len b] ++ name_words n ++ t_words l ++ t_words r
  end.
End Trie.

(** PartialEq for Names: derived (src/raz_meta.rs:154), which is that of [HashMap]: as many
    keys, and each key of the one in the other. *)
Definition names_eqb (a b : names) : bool :=
  (length (names_keys a) =? length (names_keys b)) && forallb (contains_key (names_keys b)) (names_keys a).

(** Hash for Names, src/raz_meta.rs:156-159. *)
Definition names_words (a : names) : list N := [].
