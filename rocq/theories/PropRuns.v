(** * Properties of memoised computations in experiments (C78). *)

From Verif Require Import Base Spec SpecRaz LevelTreeModel RazMetaModel RazModel RazView RazScripts
  MemoModel MemoSpec MemoHistory EvalModel EvalSpec EvalScripts EvalCases ActionModel ActionSpec MemoEval.

(** C78. In an experiment with a name for every archive point, each rerun of a bottom-up
    computation after an edit enters at most one node, and two for each of: the at most
    [batch / datagauge + 1] new archive points, the archive points before the batch that
    look back over lower ones only, and the at most 64 after it that are above all before. *)
Theorem C78_fold_up : forall (E G S O : Type) (CG : Coord E G) (WS : WordRng S)
    (eqD : forall x y : tree_data E count, {x = y} + {x <> y}) size dg changes o
    (comp : computor O (eval_raz E count G) S) (coord : G) (rng : S) ds os r,
  fits size dg 1 changes o ->
  test_seq (incremental_init ev_inc_init size dg 1 coord) (iraz_editor o) comp changes rng = Ok (ds, os, r) ->
  exists ts, Forall2 (fun d t => ev_tree d = Some t) ds ts /\
  forall (R : Type) (f : option R -> tree_data E count -> level -> option name -> option R -> res R) rs T lgs,
  runs (on_tree (m_fold_up_meta eqD f)) ts no_memos = Ok (rs, T, lgs) ->
  forall i lg, nth_error lgs (Datatypes.S i) = Some lg ->
  exists t t' pre new post, nth_error ts i = Some t /\ nth_error ts (Datatypes.S i) = Some t' /\
    contents t = pre ++ post /\ contents t' = pre ++ new ++ post /\
    (N.of_nat (length (elts new)) = hop_batch o /\ N.of_nat (length (marks new)) <= hop_batch o / dg + 1)%N /\
    seen_from_left 0%N post <= 64 /\
    length lg <= 1 + 2 * (seen_from_right pre + length (marks new) + seen_from_left 0%N post).
Proof.
  intros E G S O CG WS eqD size dg changes o comp coord rng ds os r F H.
  destruct (exp_trees size dg changes o comp coord rng ds os r F H) as (t & ts & k & F2 & Ch & Ti).
  exists (t :: ts). split; [exact F2|]. intros R f. exact (exp_up eqD f dg (hop_batch o) k t ts Ch Ti).
Qed.
Print Assumptions C78_fold_up.

(** A left-to-right computation enters all nodes after the batch as well. *)
Theorem C78_fold_lr : forall (E G S O : Type) (CG : Coord E G) (WS : WordRng S)
    (eqD : forall x y : tree_data E count, {x = y} + {x <> y}) size dg changes o
    (comp : computor O (eval_raz E count G) S) (coord : G) (rng : S) ds os r,
  fits size dg 1 changes o ->
  test_seq (incremental_init ev_inc_init size dg 1 coord) (iraz_editor o) comp changes rng = Ok (ds, os, r) ->
  exists ts, Forall2 (fun d t => ev_tree d = Some t) ds ts /\
  forall (R : Type) (eqR : forall x y : R, {x = y} + {x <> y}) init bin (meta : R -> level * option name -> R) rs T lgs,
  runs (m_rt_fold_lr_meta eqD eqR bin meta init) ts no_memos = Ok (rs, T, lgs) ->
  forall i lg, nth_error lgs (Datatypes.S i) = Some lg ->
  exists t t' pre new post, nth_error ts i = Some t /\ nth_error ts (Datatypes.S i) = Some t' /\
    contents t = pre ++ post /\ contents t' = pre ++ new ++ post /\
    (N.of_nat (length (elts new)) = hop_batch o /\ N.of_nat (length (marks new)) <= hop_batch o / dg + 1)%N /\
    length lg <= 1 + 2 * (seen_from_right pre + length (marks new) + length (marks post)).
Proof.
  intros E G S O CG WS eqD size dg changes o comp coord rng ds os r F H.
  destruct (exp_trees size dg changes o comp coord rng ds os r F H) as (t & ts & k & F2 & Ch & Ti).
  exists (t :: ts). split; [exact F2|]. intros R eqR init bin meta. exact (exp_lr eqD eqR init bin meta dg (hop_batch o) k t ts Ch Ti).
Qed.
Print Assumptions C78_fold_lr.

(** Forty elements with an archive point after every second one, four times a batch of
    two: of 39 nodes, two more after each edit, a bottom-up computation enters few again and
    a left-to-right one those after the batch. *)
Definition eq_count : forall x y : count, {x = y} + {x <> y}.
Proof. intros [a] [b]. destruct (N.eq_dec a b); [left|right]; congruence. Defined.
Definition eqN := td_eq_dec (E := N) (M := count) N.eq_dec eq_count.
Definition demo_trees : res (list (raz_tree N count)) :=
  do ' (ds, _, _) <- test_seq (incremental_init ev_inc_init 40 2 1 10%N) (iraz_editor (HInsert 2)) (find_max (ev_comp_max N.leb)) 4 4%N;
  all_ok (map (fun d => unwrap "" (ev_tree d)) ds).
Example C78_case : fits 40 2 1 4 (HInsert 2) /\
  (do ts <- demo_trees; do ' (_, _, lgs) <- runs (m_rt_fold_up eqN (fun e => e) N.max) ts no_memos; Ok (map (@length _) lgs)) =
    Ok [39; 6; 8; 9; 9]%nat /\
  (do ts <- demo_trees; do ' (_, _, lgs) <- runs (m_rt_fold_lr_meta eqN N.eq_dec N.add (fun a _ => a) 0%N) ts no_memos; Ok (map (@length _) lgs)) =
    Ok [39; 34; 36; 38; 40]%nat.
Proof. split; [repeat split; vm_compute; congruence|split; vm_compute; reflexivity]. Qed.
