(** * Vocabulary for statements about memoised folds over the store. *)

From Verif Require Import Base Spec SpecRaz LevelTreeModel RazMetaModel RazModel MemoModel MemoSpec StoreModel StoreSpec StoreScripts IncModel.

(** Run the same computation again and again, each time on some value in some store,
    keeping the table. What happened to the store between the runs is left open. *)
Fixpoint inc_runs {T A K R X Y} (run : X -> im T A K R Y) (xs : list (store T A * X)) (tab : itab A K R)
    : res (list Y * itab A K R * list (list (stree A))) :=
  match xs with
  | [] => Ok ([], tab, [])
  | (st, x) :: r =>
      do ' (y, _, tab1, lg) <- run x st tab;
      do ' (ys, tab2, lgs) <- inc_runs run r tab1;
      Ok (y :: ys, tab2, lg :: lgs)
  end.

(** The store with the cells of one namespace only: what can be read there is read
    without looking elsewhere. *)
Definition within {T A} (q : list name) (st : store T A) : store T A :=
  fun a => if list_eq_dec name_eq_dec (fst a) q then st a else None.

(** Programs (see StoreScripts) that now and then run one computation on one of their
    trees. *)
Inductive icmd (C : Type) : Type := IDo (c : C) | IFold (i : nat).
Arguments IDo {C} c.
Arguments IFold {C} i.
Inductive iout (X Y : Type) : Type := ISays (x : X) | IFolded (y : Y) | IBad.
Arguments ISays {X Y} x.
Arguments IFolded {X Y} y.
Arguments IBad {X Y}.
Definition edits {C} (cs : list (icmd C)) : list C :=
  flat_map (fun c => match c with IDo c => [c] | IFold _ => [] end) cs.

Section Programs.
Context {E M : Type} {RM : RazMeta E M} {K R Y : Type}.
Notation pool := (list (val (raz_tree E M) (raz E M))).
Notation spool := (list (val (sraz_tree E M) (sraz_z E M))).
Notation rstore := (store (level * list E) (tree_data E M)).

(** The pure reading. *)
Fixpoint pi_run (fold : raz_tree E M -> res Y) (p : pool) (cs : list (icmd (cmd E Index)))
    : res (list (iout (cout E M) Y) * pool) :=
  match cs with
  | [] => Ok ([], p)
  | c :: r =>
      do ' (x, p1) <- match c with
                      | IDo c => do ' (x, p1) <- p_step p c; Ok (ISays x, p1)
                      | IFold i =>
                          match nth_error p i with
                          | Some (VTree t) => do y <- fold t; Ok (IFolded y, p)
                          | _ => Ok (IBad, p)
                          end
                      end;
      do ' (xs, p2) <- pi_run fold p1 r;
      Ok (x :: xs, p2)
  end.

(** Over a store and a memo table. *)
Fixpoint si_run {Nsp : here} (fold : sraz_tree E M -> im (level * list E) (tree_data E M) K R Y) (k : nat)
    (p : spool) (cs : list (icmd (cmd E Index))) (st : rstore) (tab : itab (tree_data E M) K R)
    : res (list (iout (cout E M) Y) * spool * rstore * itab (tree_data E M) K R) :=
  match cs with
  | [] => Ok ([], p, st, tab)
  | c :: r =>
      do ' (x, p1, st1, tab1) <-
        match c with
        | IDo c => do ' ((x, p1), st1) <- s_step k p c st; Ok (ISays x, p1, st1, tab)
        | IFold i =>
            match nth_error p i with
            | Some (VTree t) => do ' (y, _, tab1, _) <- fold t st tab; Ok (IFolded y, p, st, tab1)
            | _ => Ok (IBad, p, st, tab)
            end
        end;
      do ' (xs, p2, st2, tab2) <- si_run fold k p1 r st1 tab1;
      Ok (x :: xs, p2, st2, tab2)
  end.
End Programs.
