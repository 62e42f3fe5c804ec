(** * Vocabulary for statements about what a program changes in the store. *)

From Verif Require Import Base StoreModel.

(** The cells whose contents are other than before, each once. *)
Definition overwritten {T A} (st st' : store T A) (l : list loc) : Prop :=
  NoDup l /\ forall a, In a l <-> st' a <> st a.
