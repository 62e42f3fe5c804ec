(** * Words for the memoised fold over the right iterator. *)

From Verif Require Import Base LevelTreeModel TreeCursorModel.

(** What the fold meets from an iterator and an accumulator: the names of the nodes it
    passes, in order, and the iterator and accumulator it then holds. *)
Inductive passes {A R} {TU : TreeUpdate A} (bin : R -> A -> R) :
    cursor A * R -> list (option name) -> cursor A * R -> Prop :=
  | Passes_none : forall s, passes bin s [] s
  | Passes_one : forall c a e c' ns s,
      iter_r_next c = Ok (Some e, c') -> passes bin (c', bin a e) ns s ->
      passes bin (c, a) (peek_name c :: ns) s.

(** Iterators a program can hold: made by [into_iters], then moved by [next]. *)
Inductive right_iter {A} {TU : TreeUpdate A} : cursor A -> Prop :=
  | RI_into : forall c l o r, into_iters c = Ok (l, o, r) -> right_iter r
  | RI_next : forall r o r', right_iter r -> iter_r_next r = Ok (o, r') -> right_iter r'.
