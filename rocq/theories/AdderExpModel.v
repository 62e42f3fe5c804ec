(** * The experiment of eval/examples/adder.rs over stores of named cells: the harness
      (ExpStoreModel) makes and edits a text, and after each edit the adder (AdderIncModel)
      runs with the memory of the runs before.

    The harness works in its own namespace, the implicit argument [Nsp] of the creation and
    the edits. Timing is dropped, as in ExpStoreModel. *)

From Verif Require Import Base StackModel AStackModel LevelTreeModel RazMetaModel RazModel ExampleModel EvalModel StoreModel ExpStoreModel AdderIncModel.

Section Test.
Context {M M' G S : Type} {RM : RazMeta N M} {RM' : RazMeta token M'} (eqK : forall x y : token, {x = y} + {x <> y})
  (eqD : forall x y : tree_data N M, {x = y} + {x <> y}) (eqD' : forall x y : tree_data token M', {x = y} + {x <> y})
  (q1 q2 q3 : list name).
Notation rstore := (store (level * list N) (tree_data N M)).
Notation making := (sm (level * list N) (tree_data N M) (seval_raz N M G * S)).

(** What a step leaves behind: each answer with the memory in which it is to be read; how many
    calls of memoised code the stages entered for each; and the harness, the generator, the store and the memory now. *)
Record trial : Type := Trial {
  tr_answers : list (sastack N level * memory M M');
  tr_calls : list (nat * nat * nat);
  tr_now : seval_raz N M G;
  tr_rng : S;
  tr_store : rstore;
  tr_memory : memory M M'
}.

(** A creation or an edit, then a computation: eval/src/test_seq.rs:36-50 and 54-70. *)
Definition trial_step (k : nat) (make : making) (ys : list (sastack N level * memory M M')) (cs : list (nat * nat * nat))
    (st : rstore) (m : memory M M') : res trial :=
  do ' ((sv, rng), st) <- make st;
  do t <- unwrap "unwrap" (sv_tree sv);
  do ' (y, m, c) <- adder_store eqK eqD eqD' q1 q2 q3 k t st m;
  Ok (Trial (ys ++ [(y, m)]) (cs ++ [c]) sv rng st m).

(** [EditComputeSequence::test], eval/src/test_seq.rs:27-77, with the computation of
    eval/examples/adder.rs:231-255, 312-315. *)
Definition adder_test (k : nat) (create : S -> making) (edit : seval_raz N M G -> S -> making) (changes : N) (rng : S) (st : rstore)
    (m : memory M M') : res trial :=
  do x <- trial_step k (create rng) [] [] st m;
  times (N.to_nat changes) (fun x => trial_step k (edit (tr_now x) (tr_rng x)) (tr_answers x) (tr_calls x) (tr_store x) (tr_memory x)) x.
End Test.
Arguments trial M M' G S : clear implicits.
