(** * Vocabulary for statements about memoised unique_elms. *)

From Verif Require Import Base LevelTreeModel RazMetaModel RazModel StoreModel SkiplistModel SkipStoreModel UniqueIncModel.

(** Run the same computation again and again, each time on some value in some stores,
    keeping the table: the cells and the answer of each run, and the handles entered. What
    happens to the stores between the runs is left open. *)
Fixpoint h_runs {T A K V X R I Y} (run : I -> @hm T A K V X R Y) (xs : list (store T A * cells K V * I))
    (tab : @htab A K V X R) : res (list (cells K V * Y) * @htab A K V X R * list (list (stree A))) :=
  match xs with
  | [] => Ok ([], tab, [])
  | (st, cs, x) :: r =>
      do ' (y, cs1, _, tab1, lg) <- run x st cs tab;
      do ' (ys, tab2, lgs) <- h_runs run r tab1;
      Ok ((cs1, y) :: ys, tab2, lg :: lgs)
  end.
