(** * Vocabulary for statements about the path a focused Raz keeps. *)

From Verif Require Import Base Spec LevelTreeModel TreeCursorModel RazMetaModel RazModel.

(** The nodes of the tree kept on the way to the cursor: the ones the cursor is to the
    right of, and the ones it is to the left of. *)
Definition left_path {E M} (z : raz E M) : nat := length (l_forest (z_l_forest z)).
Definition right_path {E M} (z : raz E M) : nat := length (r_forest (z_r_forest z)).

(** What follows the first [k] archive points. *)
Fixpoint beyond {E} (k : nat) (l : list (atom E level)) : list (atom E level) :=
  match k, l with
  | O, _ => l
  | _, [] => []
  | S _, Elt _ :: r => beyond k r
  | S k', Mark _ _ :: r => beyond k' r
  end.
