(** * Properties of [map] and [memo_from] over the mutable store (C81, C82). *)

From Verif Require Import Base Spec SpecRaz StackModel AStackModel LevelTreeModel TreeSpec TreeCursorModel RazMetaModel RazModel
  RazView RazScripts RazReach StoreModel StoreSpec StoreScripts StoreProofs StoreHistory StoreNs StoreMapModel StoreMapSpec
  StoreMapProofs PropStore PropNs.

(** C81. If no two nodes of the tree have the same name, [map] gives a handle that reads
    as the mapped tree, and writes only cells of the current namespace under names of
    the tree. *)
Theorem C81_map_agrees : forall (E M : Type) (RM : RazMeta E M) (Nsp : here) (f : E -> E) (t t' : raz_tree E M),
  rt_map f t = Ok t' -> NoDup (node_names t) ->
  exists k0, forall k st h, k0 <= k -> tree_reads st h t ->
  exists h' st', s_rt_map k f h st = Ok (h', st') /\ tree_reads st' h' t' /\
    (forall b, fst b <> path \/ ~ In (snd b) (node_names t) -> st' b = st b).
Proof.
  intros E M RM Nsp f t t' H Nd. destruct (map_agrees f t t' H Nd) as [k0 K]. exists k0. intros k st h Hk R.
  destruct (K k st h Hk R) as (h' & st' & X & Y & Z & _). eauto.
Qed.
Print Assumptions C81_map_agrees.

(** Whatever the names, the cells of other namespaces stay as they were. *)
Theorem C81_isolated : forall (E M : Type) (RM : RazMeta E M) (q : list name) k (f : E -> E) h st h' st',
  s_rt_map (M := M) (Nsp := q) k f h st = Ok (h', st') -> forall b, fst b <> q -> st' b = st b.
Proof. intros E M RM q k f h st h' st' H. exact (tame_stays _ (tame_rt_map (Nsp := q) k f h) _ _ _ H). Qed.
Print Assumptions C81_isolated.

(** If the tree has no cell in the current namespace (or no names at all), it reads as
    before. *)
Theorem C81_map_elsewhere : forall (E M : Type) (RM : RazMeta E M) (Nsp : here) (f : E -> E) (t t' : raz_tree E M),
  rt_map f t = Ok t' -> NoDup (node_names t) ->
  exists k0, forall k st h, k0 <= k -> tree_reads (without path st) h t ->
  exists h' st', s_rt_map k f h st = Ok (h', st') /\ tree_reads st' h' t' /\ tree_reads st' h t.
Proof.
  intros E M RM Nsp f t t' H Nd. destruct (map_agrees f t t' H Nd) as [k0 K]. exists k0. intros k st h Hk R.
  destruct (K k st h Hk (tree_reads_below _ _ _ _ (without_below path st) R)) as (h' & st' & X & Y & _ & Z & _).
  exists h', st'. auto.
Qed.
Print Assumptions C81_map_elsewhere.

(** If the root of the tree is a cell of the current namespace, the result is that very
    cell: the handle given to [map] reads as the mapped tree from then on. *)
Theorem C81_map_in_place : forall (E M : Type) (RM : RazMeta E M) (Nsp : here) (f : E -> E) (t t' : raz_tree E M),
  rt_map f t = Ok t' -> NoDup (node_names t) ->
  exists k0, forall k st h lv n, k0 <= k -> tree_reads st h t -> srt_tree h = Some (TCell lv (path, n)) ->
  exists h' st' u, s_rt_map k f h st = Ok (h', st') /\ rt_tree t' = Some u /\
    reads st' (TCell lv (path, n)) u.
Proof.
  intros E M RM Nsp f t t' H Nd. destruct (map_agrees f t t' H Nd) as [k0 K]. exists k0. intros k st h lv n Hk R S.
  destruct (K k st h Hk R) as (h' & st' & X & Y & _ & _ & Z). specialize (Z _ _ S). exists h', st'.
  destruct Y as [_ Y]. rewrite Z, S in Y. destruct (rt_tree t') as [u|]; [|contradiction]. eauto.
Qed.
Print Assumptions C81_map_in_place.

(** So [map] does not leave its argument alone ("returning a new tree"). *)
Definition map_original (q : list name) : sm (level * list nat) (tree_data nat count) (list (list nat)) :=
  act ' (_, p) <- s_run (Nsp := []) 80 [] original;
  act x <- pick 1 p;
  match x with
  | VTree h =>
      act y <- s_rt_map (Nsp := q) 80 (Nat.mul 10) h;
      act ' (o, _) <- s_run (Nsp := []) 80 [VTree h; VTree y] [CRead 0; CRead 1];
      s_ret (map (fun c => numbers (Some c)) o)
  | _ => s_ret []
  end.
Theorem C81_map_keeps_source_refuted : exists o,
  (do ' (o, _) <- map_original [] nix; Ok o) = Ok o /\ o = [[10; 20; 30]; [10; 20; 30]].
Proof. eexists. split; [vm_compute; reflexivity|reflexivity]. Qed.
Print Assumptions C81_map_keeps_source_refuted.

(** In another namespace it does. *)
Example C81_case : (do ' (o, _) <- map_original V nix; Ok o) = Ok [[1; 2; 3]; [10; 20; 30]].
Proof. vm_compute. reflexivity. Qed.
Example C81_case_hyps : NoDup (node_names original_tree) /\
  (exists t', rt_map (Nat.mul 10) original_tree = Ok t') /\
  exists os p st h lv n, s_run (Nsp := []) 80 [] original nix = Ok ((os, p), st) /\ nth_error p 1 = Some (VTree h) /\
    srt_tree h = Some (TCell lv ([], n)) /\ tree_reads st h original_tree /\ tree_reads (without V st) h original_tree.
Proof.
  split; [vm_compute; repeat constructor; simpl; intuition discriminate|].
  split; [eexists; vm_compute; reflexivity|].
  do 6 eexists. split; [vm_compute; reflexivity|]. split; [reflexivity|]. split; [reflexivity|].
  split; (split; [reflexivity|]); exists 10; vm_compute; reflexivity.
Qed.

(** C82. If no two archives of the stack have the same name, the tree made from it reads
    as the one the immutable reading gives, and only cells of the current namespace
    under names of the stack are written. Either no cell of the stack is in the current
    namespace and it reads as before, or it does not read as a stack any more. *)
Theorem C82_from_tail : forall (E M : Type) (RM : RazMeta E M) (Nsp : here) (a : astack E level) (t : raz_tree E M),
  from_at_tail a = Ok t -> NoDup (stack_names a) ->
  exists k0, forall k st s, k0 <= k -> stack_reads st s a ->
  exists h st', s_from_at_tail k s st = Ok (h, st') /\ tree_reads st' h t /\
    (forall b, fst b <> path \/ ~ In (snd b) (stack_names a) -> st' b = st b) /\
    ((stack_reads (without path st) s a /\ stack_reads st' s a) \/
     (~ stack_reads (without path st) s a /\ forall a', ~ stack_reads st' s a')).
Proof. intros E M RM Nsp a t. apply from_tail_agrees. Qed.
Print Assumptions C82_from_tail.

Theorem C82_from_head : forall (E M : Type) (RM : RazMeta E M) (Nsp : here) (a : astack E level) (t : raz_tree E M),
  from_at_head a = Ok t -> NoDup (stack_names a) ->
  exists k0, forall k st s, k0 <= k -> stack_reads st s a ->
  exists h st', s_from_at_head k s st = Ok (h, st') /\ tree_reads st' h t /\
    (forall b, fst b <> path \/ ~ In (snd b) (stack_names a) -> st' b = st b) /\
    ((stack_reads (without path st) s a /\ stack_reads st' s a) \/
     (~ stack_reads (without path st) s a /\ forall a', ~ stack_reads st' s a')).
Proof. intros E M RM Nsp a t. apply from_head_agrees. Qed.
Print Assumptions C82_from_head.

Theorem C82_isolated : forall (E M : Type) (RM : RazMeta E M) (q : list name) k s st h st',
  s_from_at_tail (E := E) (M := M) (Nsp := q) k s st = Ok (h, st') \/
  s_from_at_head (E := E) (M := M) (Nsp := q) k s st = Ok (h, st') -> forall b, fst b <> q -> st' b = st b.
Proof.
  intros E M RM q k s st h st' [H|H].
  - exact (tame_stays _ (tame_from_tail (Nsp := q) k s) _ _ _ H).
  - exact (tame_stays _ (tame_from_head (Nsp := q) k s) _ _ _ H).
Qed.
Print Assumptions C82_isolated.

(** So [memo_from(&AtTail)], which only borrows the stack, can take it apart: a stack made
    in the root namespace cannot be read any more after a tree was made from it there. *)
Definition fill : sm (level * list nat) (tree_data nat count) (sastack nat level) :=
  act ' (_, s) <- sa_archive (Nsp := []) (sa_push sa_new 1) (Some (NStr "a")) 5%N;
  act ' (_, s) <- sa_archive (Nsp := []) (sa_push (sa_push s 2) 3) None 3%N;
  act ' (_, s) <- sa_archive (Nsp := []) (sa_push s 4) (Some (NStr "b")) 7%N;
  s_ret (sa_push s 5).
Definition filled : astack nat level :=
  AStack [5] (Some (Head (Some (NStr "b")) (7%N, [4]) (Some (Head None (3%N, [2; 3])
    (Some (Head (Some (NStr "a")) (5%N, [1]) None)))))).
Definition from_filled (from : nat -> sastack nat level ->
    sm (level * list nat) (tree_data nat count) (sraz_tree nat count)) : res (list nat * res (astack nat level)) :=
  do ' (s, st) <- fill nix;
  do ' (h, st1) <- from 10 s st;
  do ' (c, _) <- s_run (Nsp := []) 80 [VTree h] [CRead 0] st1;
  Ok (numbers (hd_error (fst c)), do o <- heads_read 10 (sa_archived s) st1; Ok (AStack (sa_current s) o)).
Theorem C82_from_keeps_stack_refuted : exists m1 m2,
  from_filled (s_from_at_tail (Nsp := [])) = Ok ([1; 2; 3; 4; 5], Panic m1) /\
  from_filled (s_from_at_head (Nsp := [])) = Ok ([5; 4; 3; 2; 1], Panic m2).
Proof. do 2 eexists. split; vm_compute; reflexivity. Qed.
Print Assumptions C82_from_keeps_stack_refuted.

Example C82_case :
  from_filled (s_from_at_tail (Nsp := V)) = Ok ([1; 2; 3; 4; 5], Ok filled) /\
  from_filled (s_from_at_head (Nsp := V)) = Ok ([5; 4; 3; 2; 1], Ok filled).
Proof. split; vm_compute; reflexivity. Qed.
Example C82_case_hyps : NoDup (stack_names filled) /\
  (exists t : raz_tree nat count, from_at_tail filled = Ok t) /\ (exists t : raz_tree nat count, from_at_head filled = Ok t) /\
  exists s st, fill nix = Ok (s, st) /\ stack_reads st s filled /\ stack_reads (without V st) s filled.
Proof.
  split; [vm_compute; repeat constructor; simpl; intuition discriminate|].
  split; [eexists; vm_compute; reflexivity|]. split; [eexists; vm_compute; reflexivity|].
  do 2 eexists. split; [vm_compute; reflexivity|].
  split; (split; [reflexivity|]); exists 10; vm_compute; reflexivity.
Qed.
