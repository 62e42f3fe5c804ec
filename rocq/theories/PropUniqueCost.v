(** * The work of memoised unique_elms after a change (C109). *)

From Verif Require Import Base Spec SpecRaz LevelTreeModel TreeSpec RazMetaModel RazModel RazView RazScripts RazReach RazExamples
  MemoModel MemoSpec MemoProofs MemoHistory StoreModel StoreSpec StoreScripts StoreProofs StoreHistory IncModel IncSpec SkiplistModel SkipStoreModel SkipStoreSpec UniqueIncModel
  UniqueIncSpec UniqueCost PropMemo PropInc PropUniqueInc.

(** C109. Run unique_elms on a tree, over any cells of skiplists, then on a changed tree over
    the cells that the first run has left, with its table: the second run enters one node,
    and two for each archive point before the change that is seen from there, each one in
    the new part and each one after the change. On an unchanged sequence it enters one. *)
Theorem C109_rerun_unique_elms : forall (E M : Type) (RM : RazMeta E M) (eqD : forall x y : tree_data E M, {x = y} + {x <> y})
    (eqE : forall x y : E, {x = y} + {x <> y}) (q : list name) (fns : here) (my_hash : E -> N) (debug : bool) pathlen
    (t t' : raz_tree E M) pre mid mid' post,
  0 < pathlen -> (debug = true -> pathlen < 64) ->
  Forall (fun t => tree_reached false t) [t'; t] ->
  orderly_points (map contents [t'; t]) ->
  Forall (fun t => NoDup (NUnit :: NStr "start" :: named_marks (contents t))) [t'; t] ->
  contents t = pre ++ mid ++ post -> contents t' = pre ++ mid' ++ post ->
  exists k0, forall k (st st' : store (level * list E) (tree_data E M)) cs h h', k0 <= k ->
  tree_reads (within q st) h t -> tree_reads (within q st') h' t' ->
  exists y cs1 tr tab lg y' cs2 tr' tab' lg',
    unique_elms_inc (Nsp := fns) eqD eqE my_hash debug k pathlen h st cs no_hentries = Ok (y, cs1, tr, tab, lg) /\
    unique_elms_inc (Nsp := fns) eqD eqE my_hash debug k pathlen h' st' cs1 tab = Ok (y', cs2, tr', tab', lg') /\
    length lg' <= 1 + 2 * (seen_from_right pre + length (marks mid') + length (marks post)) /\
    (contents t' = contents t -> length lg' <= 1).
Proof.
  intros E M RM eqD eqE q fns my_hash debug pathlen t t' pre mid mid' post Hp Hd R D F B A.
  exact (unique_rerun eqD eqE (Nsp := fns) my_hash debug q pathlen Hp Hd t t' R D F pre mid mid' post B A).
Qed.
Print Assumptions C109_rerun_unique_elms.

(** ** Example: 8 inserted after the 5 of 1 |3| 2 |1| 3 |4| 4 |2| 5 |5| 6 |1| 7. The second
    run enters 7 of 13 nodes; the bound is 9. *)
Definition c109_pre := firstn 9 (contents memo_t0).
Definition c109_post := skipn 9 (contents memo_t0).
Definition c109_work : option (nat * nat) :=
  match uq (snd x0) (fst x0) (fun _ => None) no_hentries with
  | Ok (_, cs1, _, tab, lg) =>
      match uq (snd x1) (fst x1) cs1 tab with Ok (_, _, _, _, lg') => Some (length lg, length lg') | _ => None end
  | _ => None
  end.
Example C109_case :
  Forall (fun t => tree_reached false t) [memo_t1; memo_t0] /\ orderly_points (map contents [memo_t1; memo_t0]) /\
  Forall (fun t => NoDup (NUnit :: NStr "start" :: named_marks (contents t))) [memo_t1; memo_t0] /\
  contents memo_t0 = c109_pre ++ [] ++ c109_post /\ contents memo_t1 = c109_pre ++ [Elt 8] ++ c109_post /\
  Forall2 (fun c t => tree_reads (within HOME (fst c)) (snd c) t) [x0; x1] [memo_t0; memo_t1] /\
  1 + 2 * (seen_from_right c109_pre + length (marks [@Elt nat level 8]) + length (marks c109_post)) = 9 /\
  c109_work = Some (13, 7).
Proof.
  split; [pose proof memo_reached as M; inversion M as [|? ? M2 M']; subst; exact M'|].
  split; [pose proof memo_orderly as M; cbn [map orderly_points] in M |- *; destruct M as [M _]; exact M|].
  split; [repeat (apply Forall_cons; [vm_compute; repeat (constructor; [simpl; intuition discriminate|]); constructor|]); apply Forall_nil|].
  split; [vm_compute; reflexivity|]. split; [vm_compute; reflexivity|]. split.
  - repeat (apply Forall2_cons; [split; [vm_compute; reflexivity|apply (read_gives _ _ _ 80); vm_compute; reflexivity]|]). apply Forall2_nil.
  - split; vm_compute; reflexivity.
Qed.
