(** * What it takes for an equality and a hash function to be lawful. *)

From Verif Require Import Base TrieModel.

Definition equivalence {X} (eqb : X -> X -> bool) : Prop :=
  (forall x, eqb x x = true) /\ (forall x y, eqb x y = true -> eqb y x = true) /\
  (forall x y z, eqb x y = true -> eqb y z = true -> eqb x z = true).
Definition hash_lawful {X} (eqb : X -> X -> bool) (words : X -> list N) : Prop :=
  forall x y, eqb x y = true -> words x = words y.

(** Tries that are the same but for the maps in their leaves. *)
Inductive alike {K V : Type} : trie K V -> trie K V -> Prop :=
| alike_empty : alike TEmpty TEmpty
| alike_leaf h m m' : alike (TLeaf h m) (TLeaf h m')
| alike_bin b n l r l' r' : alike l l' -> alike r r' -> alike (TBin b n l r) (TBin b n l' r').
