(** * Properties of the example computations reverse, filter, max, tree_to_list and
    unique_elms (C47, C48, C54, C55, C56). *)

From Verif Require Import Base Spec SpecRaz StackModel AStackModel StackScripts LevelTreeModel
  TreeCursorModel RazMetaModel RazModel TreeSpec RazView RazScripts RazReach RazExamples SkiplistModel
  AccumModel AccumScripts AccumProofs ExampleModel ExampleSpec ExampleProofs ExampleCases.

(** C47. Reversing a tree reverses the elements and the archive points between them. *)
Theorem C47_reverse : forall (E M : Type) (RM : RazMeta E M) free (t : raz_tree E M),
  tree_reached free t -> contents t <> [] ->
  exists t', reverse_tree t = Ok (Some t') /\ tree_reached true t' /\ contents t' = rev (contents t).
Proof. intros E M RM. exact reverse_ok. Qed.
Print Assumptions C47_reverse.

Theorem C47_reverse_twice : forall (E M : Type) (RM : RazMeta E M) free (t : raz_tree E M),
  tree_reached free t -> contents t <> [] ->
  exists t1 t2, reverse_tree t = Ok (Some t1) /\ reverse_tree t1 = Ok (Some t2) /\ contents t2 = contents t.
Proof. intros E M RM. exact reverse_twice. Qed.
Print Assumptions C47_reverse_twice.

(** The empty tree has no reversal at all. *)
Theorem C47_empty : forall (E M : Type) (RM : RazMeta E M) free (t : raz_tree E M),
  tree_reached free t -> contents t = [] -> reverse_tree t = Ok None.
Proof. intros E M RM. exact reverse_empty. Qed.
Print Assumptions C47_empty.

(** The result need not keep the level convention: of two archive points with the
    same level the left one ends up below the right one. *)
Theorem C47_convention_refuted : exists t : raz_tree nat count, tree_reached false t /\
  exists t', reverse_tree t = Ok (Some t') /\ ~ oconventional (rt_tree t').
Proof.
  exists eq_tc. split; [exact eq_tc_reached|]. eexists. split; [vm_compute; reflexivity|].
  vm_compute. intros (H & _). discriminate H.
Qed.
Print Assumptions C47_convention_refuted.

Example C47_case : contents ex_tc <> [] /\ tree_reached false ex_tc /\
  exists t', reverse_tree ex_tc = Ok (Some t') /\
    contents t' = [Elt 6; Mark 1%N (Some (in_tree nm_b)); Elt 5; Elt 4; Mark 3%N None; Elt 3;
                   Mark 2%N (Some (in_tree nm_a)); Elt 2; Elt 1].
Proof.
  split; [discriminate|]. split; [exact ex_tc_reached|]. eexists. split; [vm_compute; reflexivity|]. reflexivity.
Qed.

(** C48. Filtering keeps exactly the chosen elements. On trees that keep the level
    convention, of the archive points between two remaining elements exactly the
    highest stays. *)
Theorem C48_filter : forall (E M : Type) (RM : RazMeta E M) free (p : E -> bool) (t : raz_tree E M),
  tree_reached free t -> contents t <> [] ->
  exists t', filter_tree p t = Ok (Some t') /\ tree_reached true t' /\
    elts (contents t') = filter p (elts (contents t)).
Proof. intros E M RM. exact filter_elts_ok. Qed.
Print Assumptions C48_filter.

Theorem C48_filter_points : forall (E M : Type) (RM : RazMeta E M) (p : E -> bool) (t : raz_tree E M),
  tree_reached false t -> contents t <> [] ->
  exists t', filter_tree p t = Ok (Some t') /\ tree_reached false t' /\
    contents t' = filtered p (contents t).
Proof. intros E M RM. exact filter_ok. Qed.
Print Assumptions C48_filter_points.

Theorem C48_empty : forall (E M : Type) (RM : RazMeta E M) free p (t : raz_tree E M),
  tree_reached free t -> contents t = [] -> filter_tree p t = Ok None.
Proof. intros E M RM. exact filter_empty. Qed.
Print Assumptions C48_empty.

(** Even elements of 1 2 |a:2| 3 |_:3| 4 5 |b:1| 6; then elements above 5; then none. *)
Example C48_case : tree_reached false ex_tc /\
  (exists t', filter_tree Nat.even ex_tc = Ok (Some t') /\
     contents t' = [Elt 2; Mark 3%N None; Elt 4; Mark 1%N (Some (in_tree nm_b)); Elt 6]) /\
  (exists t', filter_tree (Nat.ltb 5) ex_tc = Ok (Some t') /\ contents t' = [Elt 6]) /\
  (exists t', filter_tree (Nat.ltb 6) ex_tc = Ok (Some t') /\ contents t' = []).
Proof.
  split; [exact ex_tc_reached|].
  split; [|split]; (eexists; split; [vm_compute; reflexivity|]; reflexivity).
Qed.

(** C54. The tree_to_list computation: into any accumulator that is a plain stack,
    the elements in reverse order; the archive calls in between do not matter. *)
Theorem C54_to_list : forall (E M A : Type) (RM : RazMeta E M) (IF : IFace E A) (ok : level -> Prop) free (t : raz_tree E M),
  tree_reached free t -> is_lifo IF ok -> (forall lv, (1 <= lv)%N -> ok lv) ->
  forall ops, Forall (iop_levels ok) ops ->
  exists a', irun IF (to_list IF t) ops = Ok (lifo (rev (elts (contents t))) ops, a').
Proof. intros E M A RM IF ok free t H L W. exact (to_list_reached free IF ok t H L W). Qed.
Print Assumptions C54_to_list.

Example C54_case : tree_reached false ex_tc /\ is_lifo (vl_iface nat) (fun _ => True) /\
  is_lifo (raz_iface nat unit _) (fun lv => (1 <= lv)%N) /\
  map fst (match irun (vl_iface nat) (to_list (vl_iface nat) ex_tc) [IPop; IPop; IPush 9; IPop; IPop] with
           | Ok (l, _) => [(l, 0)] | _ => [] end) = [[Some (Some 6); Some (Some 5); None; Some (Some 9); Some (Some 4)]].
Proof.
  split; [exact ex_tc_reached|]. split; [apply vl_lifo|]. split; [apply raz_lifo|]. vm_compute. reflexivity.
Qed.

(** C55. The unique_elms computation makes a skiplist with exactly the elements of
    the tree as keys. *)
Theorem C55_unique_elms : forall (E M : Type) (RM : RazMeta E M) (keqb : E -> E -> bool) (my_hash : E -> N) (debug : bool),
  (forall a b, keqb a b = true <-> a = b) ->
  forall pathlen, 0 < pathlen -> (debug = true -> pathlen < 64) ->
  forall free (t : raz_tree E M), tree_reached free t ->
  exists s, unique_elms keqb my_hash debug pathlen t = Ok s /\
    forall k, sk_get keqb my_hash debug s k = Ok (if existsb (keqb k) (elts (contents t)) then Some tt else None).
Proof. intros E M RM. exact unique_elms_ok. Qed.
Print Assumptions C55_unique_elms.

Example C55_case : tree_reached false ex_tc /\
  (do s <- unique_elms Nat.eqb (fun n => N.of_nat (n mod 3)) true 2 ex_tc;
   do a <- sk_get Nat.eqb (fun n => N.of_nat (n mod 3)) true s 4;
   do b <- sk_get Nat.eqb (fun n => N.of_nat (n mod 3)) true s 7;
   Ok (a, b)) = Ok (Some tt, None).
Proof. split; [exact ex_tc_reached|]. vm_compute. reflexivity. Qed.

(** C56. The maximum by fold_up_gauged, by fold_up and by the iterator over the
    elements agree, and are the last of the greatest elements. *)
Theorem C56_max : forall (E M : Type) (RM : RazMeta E M) (leb : E -> E -> bool), total_preorder leb ->
  forall free (t : raz_tree E M), tree_reached free t -> contents t <> [] ->
  exists x, max_tree leb t = Ok (Some x) /\ comp_max_tree leb t = Ok (Some x) /\
    max_native leb (elts (contents t)) = Ok x /\ comp_max_vec leb (elts (contents t)) = Some x /\
    last_greatest leb (elts (contents t)) x.
Proof. intros E M RM. exact max_all. Qed.
Print Assumptions C56_max.

(** On the empty tree the incremental versions return nothing, the native one panics. *)
Theorem C56_max_empty : forall (E M : Type) (RM : RazMeta E M) (leb : E -> E -> bool), total_preorder leb ->
  forall free (t : raz_tree E M), tree_reached free t -> contents t = [] ->
  max_tree leb t = Ok None /\ comp_max_tree leb t = Ok None /\
  max_native leb (elts (contents t)) = Panic "unwrap on None".
Proof. intros E M RM. exact max_none. Qed.
Print Assumptions C56_max_empty.

(** Comparing only the last bit: 1, 3 and 5 are equally great, 5 is the last. *)
Example C56_case : total_preorder (fun a b => Nat.leb (a mod 2) (b mod 2)) /\ tree_reached false ex_tc /\
  contents ex_tc <> [] /\ max_tree (fun a b => Nat.leb (a mod 2) (b mod 2)) ex_tc = Ok (Some 5).
Proof.
  split; [|split; [exact ex_tc_reached|split; [discriminate|vm_compute; reflexivity]]].
  split; [intros x y z H1 H2; apply Nat.leb_le in H1, H2; apply Nat.leb_le; lia|].
  intros x y. rewrite !Nat.leb_le. lia.
Qed.
