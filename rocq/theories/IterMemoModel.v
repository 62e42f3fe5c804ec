(** * [IterR::fold_out] of src/tree_cursor.rs with its memo table.

    [TreeCursorModel.v] reads the [memo!] of this function as a plain call. Here the
    table of [MemoModel.v] is kept, with the same simplifications. *)

From Verif Require Import Base LevelTreeModel TreeCursorModel MemoModel.

Section Same.
Context {A : Type} (eqA : forall x y : A, {x = y} + {x <> y}).

(** Derived [PartialEq] of the tuples in the forests, src/tree_cursor.rs:24-37. *)
Fixpoint forest_same (f g : list (bool * tree A)) : bool :=
  match f, g with
  | [], [] => true
  | (b, t) :: f, (c, u) :: g => Bool.eqb b c && tree_same eqA t u && forest_same f g
  | _, _ => false
  end.
(** Derived [PartialEq] of [IterR], hence of [Cursor], src/tree_cursor.rs:24-37 and
    :410-413: all four fields count, also the dirty flags. *)
Definition cursor_same (c d : cursor A) : bool :=
  Bool.eqb (dirty c) (dirty d)
  && forest_same (l_forest c) (l_forest d)
  && match c_tree c, c_tree d with
     | None, None => true
     | Some t, Some u => tree_same eqA t u
     | _, _ => false
     end
  && forest_same (r_forest c) (r_forest d).
End Same.

Section Fold.
Context {A R : Type} {TU : TreeUpdate A}.
Context (eqA : forall x y : A, {x = y} + {x <> y}) (eqR : forall x y : R, {x = y} + {x <> y}).
Context (bin : R -> A -> R).

(** The arguments before the [;;]: [i:i, a:a], src/tree_cursor.rs:431. *)
Definition iter_same (k k' : cursor A * R) : bool :=
  cursor_same eqA (fst k) (fst k') && (if eqR (snd k) (snd k') then true else false).

(** [IterR::fold_out], src/tree_cursor.rs:416-436. The name is read before [next]
    moves the iterator; the memo is under its left fork. Fuel for the recursion. *)
Fixpoint m_fold_out_fuel (fuel : nat) (c : cursor A) (init : R) (tab : mtab (cursor A * R) R)
    : res (R * mtab (cursor A * R) R * list (cursor A)) :=
  match fuel with
  | O => Fuel
  | S fuel =>
      let nm := peek_name c in
      do ' (o, c') <- iter_r_next c;
      match o with
      | None => Ok (init, tab, [c])
      | Some e =>
          let a := bin init e in
          do ' (x, tab', lg) <- match nm with
                                | None => m_fold_out_fuel fuel c' a tab
                                | Some n => memo iter_same (NForkL n) (c', a) (m_fold_out_fuel fuel c' a) tab
                                end;
          Ok (x, tab', c :: lg)
      end
  end.
Definition m_fold_out (c : cursor A) (init : R) : mtab (cursor A * R) R -> res (R * mtab (cursor A * R) R * list (cursor A)) :=
  m_fold_out_fuel (iter_fuel c) c init.
End Fold.
