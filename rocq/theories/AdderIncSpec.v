(** * What the adder over stores is said to keep. *)

From Verif Require Import Base StackModel AStackModel LevelTreeModel TreeCursorModel RazMetaModel RazModel AccumModel ExampleModel MemoModel StoreModel IncModel
  IncFromModel ListIncModel TokenIncModel ParseIncModel AdderIncModel.

(** The memo entries were made by runs of the adder, in the same namespaces; the cells may
    have been changed by anybody in between. *)
Section Ran.
Context {M M' : Type} {RM : RazMeta N M} {RM' : RazMeta token M'} (eqK : forall x y : token, {x = y} + {x <> y}) (eqD : forall x y : tree_data N M, {x = y} + {x <> y})
  (eqD' : forall x y : tree_data token M', {x = y} + {x <> y}) (q1 q2 q3 : list name).
Inductive adder_ran : memory M M' -> Prop :=
| adder_none m : m_memo1 m = no_wentries -> m_memo2 m = no_centries -> m_memo3 m = no_wentries -> adder_ran m
| adder_more m k t st y m' c : adder_ran m -> adder_store eqK eqD eqD' q1 q2 q3 k t st m = Ok (y, m', c) -> adder_ran m'
| adder_other m m' : adder_ran m -> m_memo1 m' = m_memo1 m -> m_memo2 m' = m_memo2 m -> m_memo3 m' = m_memo3 m -> adder_ran m'.
End Ran.
