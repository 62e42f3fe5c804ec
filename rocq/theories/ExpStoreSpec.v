(** * Vocabulary for statements about experiments over the store. *)

From Verif Require Import Base LevelTreeModel RazMetaModel RazModel EvalModel EvalSpec StoreModel StoreSpec StoreScripts ExpStoreModel.

(** The names of a harness: numbers below a bound, for the cells of its stacks, and with a
    mark for those of its trees. *)
Definition harness_name (b : N) (n : name) : Prop :=
  exists i, (i < b)%N /\ (n = NNum i \/ n = NPair (NNum i) (NStr "tree")).

(** How many names an experiment draws. *)
Definition name_bound (size dg ng changes : N) (o : hop) : N := (size / (ng * dg) + changes * (hop_batch o / (ng * dg) + 1))%N.

Section Handles.
Context {E M G : Type}.
Notation rstore := (store (level * list E) (tree_data E M)).
(** The stores and handles on which an experiment computed. *)
Definition handles (l : list (rstore * seval_raz E M G)) : list (rstore * sraz_tree E M) :=
  flat_map (fun c => match sv_tree (snd c) with Some h => [(fst c, h)] | None => [] end) l.
End Handles.

(** The experiment over a store, in the namespace [q], went as the one over immutable
    values: the same answers, the same generator, handles that read as the trees made, and
    nothing written but cells of [q] named by the harness. *)
Definition went_as {E G S K R Y : Type} (q : list name) (b : N) (st : store (level * list E) (tree_data E count))
    (x : session E count G S K R Y) (ds : list (eval_raz E count G)) (os : list Y) (r : S) : Prop :=
  se_answers x = os /\ se_rng x = r /\
  Forall2 (fun c d => exists t, ev_tree d = Some t /\ tree_reads (fst c) (snd c) t) (handles (se_data x)) ds /\
  forall a, fst a <> q \/ ~ harness_name b (snd a) -> se_store x a = st a.
