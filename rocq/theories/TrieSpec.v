(** * Specification of the trie: where a key belongs. *)

From Verif Require Import Base TrieModel.

(** The map at the end of the path given by the bits of [h] from bit [i] up: a set bit
    goes right. *)
Fixpoint map_at {K V} (t : trie K V) (h i : N) : list (K * V) :=
  match t with
  | TEmpty => []
  | TLeaf _ m => m
  | TBin _ _ l r => map_at (if N.testbit h i then r else l) h (i + 1)%N
  end.

(** No map of the trie has a key twice. *)
Fixpoint maps_ok {K V} (t : trie K V) : Prop :=
  match t with
  | TEmpty => True
  | TLeaf _ m => NoDup (map fst m)
  | TBin _ _ l r => maps_ok l /\ maps_ok r
  end.
