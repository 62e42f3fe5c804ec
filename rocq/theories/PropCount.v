(** * Property C83: element counts past the range of [usize]. *)

From Verif Require Import Base BaseFacts Spec SpecRaz StackModel AStackModel StackScripts
  LevelTreeModel TreeCursorModel RazMetaModel RazModel TreeSpec RazView RazIndex RazScripts
  RazReach RazSession RazFacts CountWrap.

(** The count of a tree with an archive point is its number of elements modulo 2^64. *)
Theorem C83_count_wraps : forall free (E : Type) (t : raz_tree E count),
  tree_reached free t -> marks (contents t) <> [] ->
  count_n (rt_meta t) = (n_elts (contents t) mod usize_mod)%N.
Proof. intros free E t H. exact (count_fits t (tree_reached_good t H)). Qed.
Print Assumptions C83_count_wraps.

(** An index above the wrapped count is refused. *)
Theorem C83_refused : forall free (E : Type) (t : raz_tree E count) (i : N),
  tree_reached free t -> marks (contents t) <> [] ->
  (n_elts (contents t) mod usize_mod < i)%N -> i <> usize_max -> rt_focus t i = Ok None.
Proof. intros free E t i H. exact (focus_above_count t i (tree_reached_good t H)). Qed.
Print Assumptions C83_refused.

(** After a left part with a multiple of 2^64 elements, index [i] is the place after
    the first [i] elements of the right part. *)
Theorem C83_beside : forall free (E : Type) (a b t : raz_tree E count) lev nm i,
  tree_reached free a -> tree_reached free b -> tree_reached free t ->
  rt_join a lev nm b = Ok (Some t) -> marks (contents a) <> [] ->
  (n_elts (contents a) mod usize_mod = 0)%N -> (n_elts (contents b) < usize_max)%N ->
  1 <= i <= length (elts (contents b)) ->
  exists z, rt_focus t (N.of_nat i) = Ok (Some z) /\
    behaves z (rev (elts (contents a) ++ firstn i (elts (contents b)))) (skipn i (elts (contents b))).
Proof. intros free E a b t lev nm i. exact (beside_behaves a b t free lev nm i). Qed.
Print Assumptions C83_beside.

(** Such trees exist for every element: a one-element tree joined with itself 64
    times. So [Count] is not the number of elements and [focus] refuses index 1 in a
    tree that has more elements than that. *)
Theorem C83_count_exact_refuted : forall (E : Type) (e : E), exists t : raz_tree E count,
  tree_reached false t /\ n_elts (contents t) = usize_mod /\ marks (contents t) <> [] /\
  rt_meta t = Count 0 /\ rt_focus t (1%N : @Index E count _) = Ok None.
Proof. intros E. exact full_refused. Qed.
Print Assumptions C83_count_exact_refuted.

(** The same beside one more element: the tree has 2^64 + 1 elements, its count is
    1, and index 1 is the end. *)
Example C83_case : exists (a b t : raz_tree nat count),
  tree_reached false a /\ tree_reached false b /\ tree_reached false t /\
  rt_join a 65%N None b = Ok (Some t) /\ marks (contents a) <> [] /\
  (n_elts (contents a) mod usize_mod = 0)%N /\ elts (contents b) = [7] /\
  n_elts (contents t) = (usize_mod + 1)%N /\ rt_meta t = Count 1.
Proof. exact (full_beside 5 7). Qed.
