(** * Properties of experiments over the mutable store (C107). *)

From Verif Require Import Base Spec SpecRaz LevelTreeModel TreeSpec RazMetaModel RazModel RazView RazScripts ExampleModel ExampleSpec MemoModel MemoSpec MemoHistory
  EvalModel EvalSpec EvalScripts EvalProofs EvalCases ActionModel ActionSpec ActionProofs MemoEval StoreModel StoreSpec StoreScripts StoreProofs StoreNs
  IncModel IncSpec IncProofs IncCost ExpStoreModel ExpStoreSpec ExpStoreProofs PropRuns PropInc.

(** C107. Over a mutable store, from whatever is in it, with the memo table kept from one
    computation to the next, an experiment on [EvalIRaz] goes as over immutable values
    without a memo table. The harness works in any namespace [q], the computation in any
    namespace [fns]. *)
Section Answers.
Context (E G S : Type) (CG : Coord E G) (WS : WordRng S) (eqD : forall x y : tree_data E count, {x = y} + {x <> y})
  (q fns : here) (R : Type) (size dg ng changes : N) (o : hop) (coord : G) (rng : S) (ds : list (eval_raz E count G)) (r : S).
Hypothesis fine : fits size dg ng changes o.
Notation rstore := (store (level * list E) (tree_data E count)).
Notation pure_experiment comp := (test_seq (incremental_init ev_inc_init size dg ng coord) (iraz_editor o) comp changes rng).
Notation experiment k comp st := (s_test_seq (sv_inc_init (Nsp := q) k size dg ng coord) (siraz_editor (Nsp := q) k o) comp changes rng st no_entries).

Theorem C107_tfold : forall (init : E -> R) (bin : R -> R -> R) os,
  pure_experiment (tree_fold ev_comp_tfold init bin) = Ok (ds, os, r) ->
  exists k0, forall k (st : rstore), k0 <= k -> exists x,
    experiment k (i_rt_fold_up (Nsp := fns) eqD k init bin) st = Ok x /\ went_as q (name_bound size dg ng changes o) st x ds os r.
Proof.
  intros init bin os H.
  refine (session_went eqD _ (fun k => i_rt_fold_up (Nsp := fns) eqD k init bin) _ (fun Nsp => rt_up_tracks (Fns := fns) eqD (up_node init bin))
    _ _ q size dg ng changes o coord rng ds os r fine H).
  apply calls_on_tree. reflexivity.
Qed.
Theorem C107_tfoldnl : forall (init : E -> R) (bin : R -> R -> R) (binnl : R -> level -> option name -> R -> R) os,
  pure_experiment (tree_fold_nl ev_comp_tfoldnl init bin binnl) = Ok (ds, os, r) ->
  exists k0, forall k (st : rstore), k0 <= k -> exists x,
    experiment k (i_rt_fold_up_nl (Nsp := fns) eqD k init bin binnl) st = Ok x /\ went_as q (name_bound size dg ng changes o) st x ds os r.
Proof.
  intros init bin binnl os H.
  refine (session_went eqD _ (fun k => i_rt_fold_up_nl (Nsp := fns) eqD k init bin binnl) _ (fun Nsp => rt_up_tracks (Fns := fns) eqD (up_nl_node init bin binnl))
    _ _ q size dg ng changes o coord rng ds os r fine H).
  apply calls_on_tree. reflexivity.
Qed.
Theorem C107_tfoldg : forall (init : list E -> res R) (bin : R -> level -> option name -> R -> res R) os,
  pure_experiment (tree_fold_g ev_comp_tfoldg init bin) = Ok (ds, os, r) ->
  exists k0, forall k (st : rstore), k0 <= k -> exists x,
    experiment k (i_rt_fold_up_gauged (Nsp := fns) eqD k init bin) st = Ok x /\ went_as q (name_bound size dg ng changes o) st x ds os r.
Proof.
  intros init bin os H.
  refine (session_went eqD _ (fun k => i_rt_fold_up_gauged (Nsp := fns) eqD k init bin) _ (fun Nsp => rt_up_tracks (Fns := fns) eqD (up_gauged_node init bin))
    _ _ q size dg ng changes o coord rng ds os r fine H).
  apply calls_on_tree. reflexivity.
Qed.
Theorem C107_fold_meta : forall (eqR : forall x y : R, {x = y} + {x <> y}) (init : R) (bin : R -> E -> R)
    (meta : R -> level * option name -> R) os,
  pure_experiment (calling (ev_comp_fold_meta init bin meta)) = Ok (ds, os, r) ->
  exists k0, forall k (st : rstore), k0 <= k -> exists x,
    experiment k (i_rt_fold_lr_meta (Nsp := fns) eqD eqR k bin meta init) st = Ok x /\ went_as q (name_bound size dg ng changes o) st x ds os r.
Proof.
  intros eqR init bin meta os H.
  refine (session_went eqD _ (fun k => i_rt_fold_lr_meta (Nsp := fns) eqD eqR k bin meta init) _ (fun Nsp => rt_lr_tracks (Fns := fns) eqD eqR (lr_node bin meta) init)
    _ _ q size dg ng changes o coord rng ds os r fine H).
  apply calls_on_tree. reflexivity.
Qed.
Theorem C107_fold_archive : forall (eqR : forall x y : R, {x = y} + {x <> y}) (init : R) (bin : R -> E -> R)
    (finbin : R -> option name -> R) (meta : R -> level -> R) os,
  pure_experiment (calling (ev_comp_fold_archive init bin finbin meta)) = Ok (ds, os, r) ->
  exists k0, forall k (st : rstore), k0 <= k -> exists x,
    experiment k (i_rt_fold_lr_archive (Nsp := fns) eqD eqR k bin finbin meta init) st = Ok x /\ went_as q (name_bound size dg ng changes o) st x ds os r.
Proof.
  intros eqR init bin finbin meta os H.
  refine (session_went eqD _ (fun k => i_rt_fold_lr_archive (Nsp := fns) eqD eqR k bin finbin meta init) _ (fun Nsp => rt_lr_tracks (Fns := fns) eqD eqR (lr_archive_node bin finbin meta) init)
    _ _ q size dg ng changes o coord rng ds os r fine H).
  apply calls_on_tree. reflexivity.
Qed.

End Answers.
Print Assumptions C107_tfold.
Print Assumptions C107_tfoldnl.
Print Assumptions C107_tfoldg.
Print Assumptions C107_fold_meta.
Print Assumptions C107_fold_archive.

(** So it never panics, and its [i]-th answer is the one for the list that [i] edits make
    of the generated elements: their left fold, their greatest. *)
Theorem C107_list_fold : forall (E G S : Type) (CG : Coord E G) (WS : WordRng S)
    (eqD : forall x y : tree_data E count, {x = y} + {x <> y}) (q fns : here) (R : Type)
    (eqR : forall x y : R, {x = y} + {x <> y}) (init : R) (bin : R -> E -> R) size dg ng changes o (coord : G) (rng : S),
  fits size dg ng changes o ->
  exists k0, forall k st, k0 <= k -> exists x,
    s_test_seq (sv_inc_init (Nsp := q) k size dg ng coord) (siraz_editor (Nsp := q) k o)
      (i_rt_fold_lr (Nsp := fns) eqD eqR k bin init) changes rng st no_entries = Ok x /\
    length (se_answers x) = Datatypes.S (N.to_nat changes) /\
    forall i y, nth_error (se_answers x) i = Some y -> exists xs g,
      edited gen_elt gen_usize size coord o i = Some (xs, g) /\ y = fold_left bin xs init.
Proof. intros E G S CG WS eqD q fns R. exact (list_fold eqD q fns). Qed.
Print Assumptions C107_list_fold.
Theorem C107_list_max : forall (E G S : Type) (CG : Coord E G) (WS : WordRng S)
    (eqD : forall x y : tree_data E count, {x = y} + {x <> y}) (q fns : here) (leb : E -> E -> bool)
    size dg ng changes o (coord : G) (rng : S),
  total_preorder leb -> fits size dg ng changes o ->
  exists k0, forall k st, k0 <= k -> exists x,
    s_test_seq (sv_inc_init (Nsp := q) k size dg ng coord) (siraz_editor (Nsp := q) k o)
      (i_rt_fold_up (Nsp := fns) eqD k (fun e => e) (cmp_max leb)) changes rng st no_entries = Ok x /\
    length (se_answers x) = Datatypes.S (N.to_nat changes) /\
    forall i y, nth_error (se_answers x) i = Some y -> exists xs g m,
      edited gen_elt gen_usize size coord o i = Some (xs, g) /\ y = Some m /\ last_greatest leb xs m.
Proof. intros E G S CG WS eqD q fns. exact (list_max eqD q fns). Qed.
Print Assumptions C107_list_max.

(** With a name for every archive point, each computation after an edit runs few of the
    functions again, as over immutable trees (C78), although the edit has overwritten
    cells. *)
Theorem C107_work_tfold : forall (E G S : Type) (CG : Coord E G) (WS : WordRng S)
    (eqD : forall x y : tree_data E count, {x = y} + {x <> y}) (q fns : here) (R : Type) (init : E -> R) (bin : R -> R -> R)
    size dg changes o (coord : G) (rng : S) ds os r,
  fits size dg 1 changes o ->
  test_seq (incremental_init ev_inc_init size dg 1 coord) (iraz_editor o) (tree_fold ev_comp_tfold init bin) changes rng = Ok (ds, os, r) ->
  exists k0, forall k st x, k0 <= k ->
  s_test_seq (sv_inc_init (Nsp := q) k size dg 1 coord) (siraz_editor (Nsp := q) k o)
    (i_rt_fold_up (Nsp := fns) eqD k init bin) changes rng st no_entries = Ok x ->
  forall i lg, nth_error (se_work x) (Datatypes.S i) = Some lg ->
  exists c c' t t' pre new post,
    nth_error (handles (se_data x)) i = Some c /\ nth_error (handles (se_data x)) (Datatypes.S i) = Some c' /\
    tree_reads (fst c) (snd c) t /\ tree_reads (fst c') (snd c') t' /\
    contents t = pre ++ post /\ contents t' = pre ++ new ++ post /\
    (N.of_nat (length (elts new)) = hop_batch o /\ N.of_nat (length (marks new)) <= hop_batch o / dg + 1)%N /\
    seen_from_left 0%N post <= 64 /\
    length lg <= 1 + 2 * (seen_from_right pre + length (marks new) + seen_from_left 0%N post).
Proof. intros E G S CG WS eqD q fns R. exact (work_tfold eqD q fns). Qed.
Print Assumptions C107_work_tfold.
Theorem C107_work_tfoldg : forall (E G S : Type) (CG : Coord E G) (WS : WordRng S)
    (eqD : forall x y : tree_data E count, {x = y} + {x <> y}) (q fns : here) (R : Type) (init : list E -> res R)
    (bin : R -> level -> option name -> R -> res R) size dg changes o (coord : G) (rng : S) ds os r,
  fits size dg 1 changes o ->
  test_seq (incremental_init ev_inc_init size dg 1 coord) (iraz_editor o) (tree_fold_g ev_comp_tfoldg init bin) changes rng = Ok (ds, os, r) ->
  exists k0, forall k st x, k0 <= k ->
  s_test_seq (sv_inc_init (Nsp := q) k size dg 1 coord) (siraz_editor (Nsp := q) k o)
    (i_rt_fold_up_gauged (Nsp := fns) eqD k init bin) changes rng st no_entries = Ok x ->
  forall i lg, nth_error (se_work x) (Datatypes.S i) = Some lg ->
  exists c c' t t' pre new post,
    nth_error (handles (se_data x)) i = Some c /\ nth_error (handles (se_data x)) (Datatypes.S i) = Some c' /\
    tree_reads (fst c) (snd c) t /\ tree_reads (fst c') (snd c') t' /\
    contents t = pre ++ post /\ contents t' = pre ++ new ++ post /\
    (N.of_nat (length (elts new)) = hop_batch o /\ N.of_nat (length (marks new)) <= hop_batch o / dg + 1)%N /\
    seen_from_left 0%N post <= 64 /\
    length lg <= 1 + 2 * (seen_from_right pre + length (marks new) + seen_from_left 0%N post).
Proof. intros E G S CG WS eqD q fns R. exact (work_tfoldg eqD q fns). Qed.
Print Assumptions C107_work_tfoldg.
Theorem C107_work_fold_meta : forall (E G S : Type) (CG : Coord E G) (WS : WordRng S)
    (eqD : forall x y : tree_data E count, {x = y} + {x <> y}) (q fns : here) (R : Type)
    (eqR : forall x y : R, {x = y} + {x <> y}) (init : R) (bin : R -> E -> R) (meta : R -> level * option name -> R)
    size dg changes o (coord : G) (rng : S) ds os r,
  fits size dg 1 changes o ->
  test_seq (incremental_init ev_inc_init size dg 1 coord) (iraz_editor o) (calling (ev_comp_fold_meta init bin meta)) changes rng = Ok (ds, os, r) ->
  exists k0, forall k st x, k0 <= k ->
  s_test_seq (sv_inc_init (Nsp := q) k size dg 1 coord) (siraz_editor (Nsp := q) k o)
    (i_rt_fold_lr_meta (Nsp := fns) eqD eqR k bin meta init) changes rng st no_entries = Ok x ->
  forall i lg, nth_error (se_work x) (Datatypes.S i) = Some lg ->
  exists c c' t t' pre new post,
    nth_error (handles (se_data x)) i = Some c /\ nth_error (handles (se_data x)) (Datatypes.S i) = Some c' /\
    tree_reads (fst c) (snd c) t /\ tree_reads (fst c') (snd c') t' /\
    contents t = pre ++ post /\ contents t' = pre ++ new ++ post /\
    (N.of_nat (length (elts new)) = hop_batch o /\ N.of_nat (length (marks new)) <= hop_batch o / dg + 1)%N /\
    length lg <= 1 + 2 * (seen_from_right pre + length (marks new) + length (marks post)).
Proof. intros E G S CG WS eqD q fns R. exact (work_fold_meta eqD q fns). Qed.
Print Assumptions C107_work_fold_meta.

Definition listed k (sv : seval_raz N count N) st : res (list N) :=
  do ' (y, _, _, _) <- sv_compute (i_rt_fold_lr (Nsp := []) eqN (list_eq_dec N.eq_dec) k (fun l e => l ++ [e]) []) sv st no_entries; Ok y.
(** Two harnesses in one namespace draw the same names, so making the second one changes
    what the handle of the first one reads as, ... *)
Theorem C107_two_refuted : exists (q : list name) k (sva svb : seval_raz N count N)
    (st1 st2 : store (level * list N) (tree_data N count)) r1 r2,
  sv_inc_init (Nsp := q) k 4 2 1 10%N 4%N nix = Ok ((sva, r1), st1) /\
  sv_inc_init (Nsp := q) k 4 2 1 50%N r1 st1 = Ok ((svb, r2), st2) /\
  listed k sva st1 = Ok [10; 11; 12; 13]%N /\ listed k sva st2 <> Ok [10; 11; 12; 13]%N.
Proof.
  set (x1 := sv_inc_init (Nsp := HOME) 60 4 2 1 10%N 4%N (nix : store (level * list N) (tree_data N count))).
  destruct x1 as [[[sva r1] st1]| |] eqn:H1; [|vm_compute in H1; discriminate H1..].
  set (x2 := sv_inc_init (Nsp := HOME) 60 4 2 1 50%N r1 st1).
  destruct x2 as [[[svb r2] st2]| |] eqn:H2; [|vm_compute in H1; injection H1 as <- <- <-; vm_compute in H2; discriminate H2..].
  exists HOME, 60, sva, svb, st1, st2, r1, r2. split; [exact H1|]. split; [exact H2|].
  vm_compute in H1. injection H1 as <- <- <-. vm_compute in H2. injection H2 as <- <- <-. split; [vm_compute; reflexivity|vm_compute; discriminate].
Qed.
Print Assumptions C107_two_refuted.

(** Also [inc_from] counts names from 0. Make a tree of eight elements, then with a new
    harness for this tree insert twice a batch of two, all in one namespace: the tree
    made has elements twice and others not at all, ... *)
Theorem C107_from_refuted : exists (q : list name) k (l l' : list N),
  (do ' (ev0, r0) <- ev_inc_init (M := count) 8 2 1 10%N 4%N;
   do t <- unwrap "" (ev_tree ev0);
   do ' (ev1, r1) <- iraz_editor (HInsert 2) (ev_from_tree t 2 1 50%N) r0;
   do ' (ev2, _) <- iraz_editor (HInsert 2) ev1 r1;
   do t2 <- unwrap "" (ev_tree ev2); Ok (elts (contents t2))) = Ok l /\
  (do ' (sv0, r0, st0) <- sv_inc_init (M := count) (Nsp := q) k 8 2 1 10%N 4%N nix;
   do t <- unwrap "" (sv_tree sv0);
   do ' (sv1, r1, st1) <- siraz_editor (Nsp := q) k (HInsert 2) (sv_from_tree t 2 1 50%N) r0 st0;
   do ' (sv2, _, st2) <- siraz_editor (Nsp := q) k (HInsert 2) sv1 r1 st1;
   listed k sv2 st2) = Ok l' /\
  l = [10; 11; 51; 54; 55; 52; 12; 13; 14; 15; 16; 17]%N /\ l' = [10; 11; 51; 54; 55; 52; 10; 11; 51; 54; 55; 52]%N.
Proof. exists HOME, 60. eexists _, _. split; [vm_compute; reflexivity|]. split; [vm_compute; reflexivity|]. split; reflexivity. Qed.
Print Assumptions C107_from_refuted.

(** ... but experiments in different namespaces leave each other's trees alone. *)
Theorem C107_apart : forall (E G S : Type) (CG : Coord E G) (WS : WordRng S) (q q' : here) K R Y
    (comp : sraz_tree E count -> im (level * list E) (tree_data E count) K R Y) k size dg ng changes o (coord : G) (rng : S) st tab x,
  q <> q' ->
  s_test_seq (sv_inc_init (Nsp := q') k size dg ng coord) (siraz_editor (Nsp := q') k o) comp changes rng st tab = Ok x ->
  forall h t, tree_reads (within q st) h t -> tree_reads (within q (se_store x)) h t.
Proof. intros E G S CG WS q q' K R Y. exact (sessions_apart q q'). Qed.
Print Assumptions C107_apart.

(** The experiment of C78 from a store that already holds something: forty elements with an
    archive point after every second one, four times a batch of two. The greatest element
    each time, and the bodies run: of 39 nodes, two more after each edit, few again. *)
Definition old_store : store (level * list N) (tree_data N count) :=
  fun a => match snd a with NNum 3 => Some (CBody (7%N, [99%N]) None) | NPair _ _ => Some (CNode (Leaf [77%N]) None None) | _ => None end.
Definition demo_session : res (session N count N N (stree (tree_data N count)) N (option N)) :=
  s_test_seq (sv_inc_init (Nsp := HOME) 200 40 2 1 10%N) (siraz_editor (Nsp := HOME) 200 (HInsert 2))
    (i_rt_fold_up (Nsp := FOLD) eqN 200 (fun e => e) N.max) 4 4%N old_store no_entries.
Example C107_case : fits 40 2 1 4 (HInsert 2) /\
  (do x <- demo_session; Ok (se_answers x, map (@length _) (se_work x))) =
    Ok ([Some 49; Some 52; Some 55; Some 58; Some 61]%N, [39; 6; 8; 9; 9]%nat).
Proof. split; [repeat split; vm_compute; congruence|vm_compute; reflexivity]. Qed.

(** Between two experiments in different namespaces the first one's tree stays. *)
Definition AWAY := [NStr "away"].
Example C107_apart_case : HOME <> AWAY /\
  (do ' ((sva, r), st) <- sv_inc_init (Nsp := HOME) 60 4 2 1 10%N 4%N nix;
   do x <- s_test_seq (sv_inc_init (Nsp := AWAY) 60 4 2 1 50%N) (siraz_editor (Nsp := AWAY) 60 (HInsert 2))
             (i_rt_fold_up (Nsp := FOLD) eqN 60 (fun e => e) N.max) 2 r st no_entries;
   do l <- listed 60 sva (se_store x); do l' <- listed 60 (se_now x) (se_store x); Ok (l, l', se_answers x)) =
    Ok ([10; 11; 12; 13], [50; 51; 55; 58; 59; 56; 52; 53], [Some 53; Some 56; Some 59])%N.
Proof. split; [vm_compute; congruence|vm_compute; reflexivity]. Qed.
