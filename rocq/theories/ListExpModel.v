(** * Experiments over stores of named cells whose computation makes accumulators in cells:
      the harness (ExpStoreModel) makes and edits a sequence, and after each edit a memoised
      computation of ListIncModel runs with the cells and the table of the runs before.

    As AdderExpModel, with one stage. Timing is dropped. *)

From Verif Require Import Base LevelTreeModel RazMetaModel RazModel EvalModel StoreModel ExpStoreModel ListIncModel.

Section Test.
Context {E M G S C K R Y : Type}.
Notation rstore := (store (level * list E) (tree_data E M)).
Notation making := (sm (level * list E) (tree_data E M) (seval_raz E M G * S)).
Notation table := (wtab (tree_data E M) C K R).

(** What a step leaves behind: the store and the handle at each computation; each answer with the cells in which it is to be read; how many
    calls were entered for each; and the harness, the generator, the store, the cells and the
    table now. *)
Record wtrial : Type := WTrial {
  wt_given : list (rstore * sraz_tree E M);
  wt_answers : list (Y * wcells C);
  wt_calls : list nat;
  wt_now : seval_raz E M G;
  wt_rng : S;
  wt_store : rstore;
  wt_cells : wcells C;
  wt_table : table
}.

(** A creation or an edit, then a computation: eval/src/test_seq.rs:36-50 and 54-70. *)
Definition wtrial_step (run : sraz_tree E M -> wm (level * list E) (tree_data E M) C K R Y) (make : making)
    (hs : list (rstore * sraz_tree E M)) (ys : list (Y * wcells C)) (ns : list nat) (st : rstore) (cs : wcells C) (tab : table) : res wtrial :=
  do ' ((sv, rng), st) <- make st;
  do t <- unwrap "unwrap" (sv_tree sv);
  do ' (y, cs, _, tab, lg) <- run t st cs tab;
  Ok (WTrial (hs ++ [(st, t)]) (ys ++ [(y, cs)]) (ns ++ [length lg]) sv rng st cs tab).

(** [EditComputeSequence::test], eval/src/test_seq.rs:27-77, as used at
    eval/examples/tree_to_list.rs:103-188. *)
Definition w_test (run : sraz_tree E M -> wm (level * list E) (tree_data E M) C K R Y) (create : S -> making)
    (edit : seval_raz E M G -> S -> making) (changes : N) (rng : S) (st : rstore) (cs : wcells C) (tab : table) : res wtrial :=
  do x <- wtrial_step run (create rng) [] [] [] st cs tab;
  times (N.to_nat changes)
    (fun x => wtrial_step run (edit (wt_now x) (wt_rng x)) (wt_given x) (wt_answers x) (wt_calls x) (wt_store x) (wt_cells x) (wt_table x)) x.
End Test.
Arguments wtrial E M G S C K R Y : clear implicits.
