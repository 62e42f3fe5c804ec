(** * Properties of the moves over the tree that editing makes (C97, C98). *)

From Verif Require Import Base Spec SpecRaz StackModel LevelTreeModel TreeSpec TreeCursorModel RazMetaModel RazModel RazView RazScripts
  RazSession RazReach RazFacts RazIndex MemoSpec PathSpec LevelGenModel ChanceSpec ChanceRuns PropChance
  WorkModel WorkSpec WorkFacts WorkRaz WorkUse WorkCases.

(** C97. Counting the moves changes no result. *)
Theorem C97_counting : forall (E M : Type) (RM : RazMeta E M),
  (forall (t : raz_tree E M) i x, rt_focus t i = Ok x <-> exists n, w_focus t i = Ok (n, x)) /\
  (forall (t : raz_tree E M) z, rt_focus_left t = Ok z <-> exists n, w_focus_left t = Ok (n, z)) /\
  (forall (z : raz E M) ops x, zrun z ops = Ok x <-> exists n, w_run z ops = Ok (n, x)) /\
  (forall (z : raz E M) t, unfocus z = Ok t <-> exists n, w_unfocus z = Ok (n, t)).
Proof. intros E M RM. exact counting. Qed.
Print Assumptions C97_counting.

(** Focusing goes straight to the place; a script of edits pays for the points it passes;
    unfocusing goes along the path and the new archive points; together they are linear
    in the number of edits and the points seen in the end. *)
Theorem C97_edit : forall (E M : Type) (RM : RazMeta E M) (t : raz_tree E M) i n1 z,
  tree_reached false t -> lawful RM -> w_focus t i = Ok (n1, Some z) ->
  exists p q, p ++ q = contents t /\ session z (sz_at p q) /\
  (seen_from_right p + seen_from_left 0%N q <= n1 <= seen_from_right p + seen_from_left 0%N q + 1) /\
  forall ops n2 os z', Forall zop_ok ops -> Forall no_peek ops -> w_run z ops = Ok (n2, (os, z')) ->
  let s := snd (sz_run (sz_at p q) ops) in
  n2 + seen_from_right p + seen_from_left 0%N q = seen_left s + seen_right s + tolls (sz_at p q) ops /\
  forall n3 t', w_unfocus z' = Ok (n3, t') ->
  n3 <= seen_left s + seen_right s + 2 * seen_left_next s + 8 * (s_lnew s + s_rnew s) + 6 /\
  n1 + n2 + n3 <= 2 * (seen_left s + seen_right s + seen_left_next s) + 8 * length ops + 7.
Proof. intros E M RM. exact edit_moves. Qed.
Print Assumptions C97_edit.

(** With the metadata that counts, the place is the one after [i] elements. *)
Theorem C97_edit_count : forall (E : Type) (t : raz_tree E count) i n1 o,
  tree_reached false t -> (n_elts (contents t) < usize_mod)%N -> i <= length (elts (contents t)) ->
  w_focus t (N.of_nat i) = Ok (n1, o) ->
  let s0 := sz_focus_count i (contents t) in
  exists z, o = Some z /\ (seen_left s0 + seen_right s0 <= n1 <= seen_left s0 + seen_right s0 + 1) /\
  forall ops n2 os z', Forall zop_ok ops -> Forall no_peek ops -> w_run z ops = Ok (n2, (os, z')) ->
  let s := snd (sz_run s0 ops) in
  n2 + seen_left s0 + seen_right s0 = seen_left s + seen_right s + tolls s0 ops /\
  forall n3 t', w_unfocus z' = Ok (n3, t') ->
  n3 <= seen_left s + seen_right s + 2 * seen_left_next s + 8 * (s_lnew s + s_rnew s) + 6 /\
  n1 + n2 + n3 <= 2 * (seen_left s + seen_right s + seen_left_next s) + 8 * length ops + 7.
Proof. intros E. exact edit_moves_count. Qed.
Print Assumptions C97_edit_count.

(** [focus_left] makes one move more than there are nodes to the right of the cursor. *)
Theorem C97_focus_left : forall (E M : Type) (RM : RazMeta E M) (t : raz_tree E M) n z,
  w_focus_left t = Ok (n, z) -> left_path z = 0 /\ n = match rt_tree t with None => 0 | Some _ => right_path z + 1 end.
Proof. intros E M RM. exact focus_left_moves. Qed.
Print Assumptions C97_focus_left.

(** Peeking makes as many moves as popping ... *)
Theorem C97_peek : forall (E M : Type) (RM : RazMeta E M) free (z : raz E M) n x m y, raz_reached free z ->
  (w_peek_left z = Ok (n, x) -> w_pop_left z = Ok (m, y) -> n = m) /\
  (w_peek_right z = Ok (n, x) -> w_pop_right z = Ok (m, y) -> n = m).
Proof. intros E M RM. exact peek_moves. Qed.
Print Assumptions C97_peek.

(** ... but, popping nothing, it makes them each time anew: that peeks are as cheap as the
    other operations in the long run is refuted. *)
Theorem C97_peeks_cheap_refuted : forall n, (N.of_nat (S (S n)) < usize_mod)%N ->
  exists (t : raz_tree nat count) z os z1, tree_reached false t /\ length (marks (contents t)) = S n /\
  rt_focus t (N.of_nat (S (S n))) = Ok (Some z) /\ zrun z [OPopL] = Ok (os, z1) /\ left_path z1 + right_path z1 = 1 /\
  forall k, exists os', w_run z1 (repeat OPeekL k) = Ok (k * (n + 3), (os', z1)).
Proof. exact peeks_long. Qed.
Print Assumptions C97_peeks_cheap_refuted.

(** C98. On average over the generated levels of the archive points left on either side,
    an edit of [k] steps makes logarithmically many moves. *)
Theorem C98_average : forall (E : Type) a b k (work : list N -> nat), (N.of_nat a < 2 ^ 63)%N -> (N.of_nat b < 2 ^ 63)%N ->
  (forall ws, draws (a + b) ws -> exists (t : raz_tree E count) i ops n1 z n2 os z' n3 t',
    tree_reached false t /\ (n_elts (contents t) < usize_mod)%N /\ i <= length (elts (contents t)) /\
    Forall zop_ok ops /\ Forall no_peek ops /\ length ops <= k /\
    (let s := snd (sz_run (sz_focus_count i (contents t)) ops) in
     levels_from (rev (beyond (s_lnew s) (s_left s))) (firstn a ws) /\ levels_from (beyond (s_rnew s) (s_right s)) (skipn a ws)) /\
    w_focus t (N.of_nat i) = Ok (n1, Some z) /\ w_run z ops = Ok (n2, (os, z')) /\ w_unfocus z' = Ok (n3, t') /\
    n1 + n2 + n3 = work ws) ->
  on_average (a + b) (fun ws => N.of_nat (work ws)) (4 * N.log2 (N.of_nat a) + N.log2 (N.of_nat b) + 8 * N.of_nat k + 18)%N.
Proof. intros E. exact average_edit. Qed.
Print Assumptions C98_average.

(** ** Examples *)
(** 0 |3| 1 |1| 2 |4| 3 |2| 4 |5| 5 |1| 6, from every place: only looked at; with two
    elements and an archive point put in; with everything before the place removed. *)
Definition put_in : list (zop nat) := [OPushL 100; OArchL 2%N None; OPushL 101].
Definition take_out : list (zop nat) := repeat OPopL 8.
Definition places : list nat := [0; 1; 2; 3; 4; 5; 6; 7].
Definition tolls_at (ops : list (zop nat)) (i : nat) : nat := tolls (sz_focus_count i (contents six_tree)) ops.
Definition bound_at (ops : list (zop nat)) (i : nat) : nat :=
  let s := snd (sz_run (sz_focus_count i (contents six_tree)) ops) in
  2 * (seen_left s + seen_right s + seen_left_next s) + 8 * length ops + 7.
Example C97_case :
  map (fun i => moves six_tree i []) places =
    [(3, 0, 7); (4, 0, 7); (5, 0, 10); (5, 0, 8); (4, 0, 9); (4, 0, 7); (3, 0, 8); (2, 0, 6)] /\
  map (bound_at []) places = [13; 13; 15; 17; 17; 15; 15; 13] /\
  map (fun i => moves six_tree i put_in) places =
    [(3, 0, 7); (4, 0, 7); (5, 0, 12); (5, 0, 10); (4, 0, 11); (4, 0, 7); (3, 0, 10); (2, 0, 8)] /\
  map (bound_at put_in) places = [37; 37; 39; 41; 41; 39; 39; 37] /\
  map (fun i => moves six_tree i take_out) places =
    [(3, 8, 7); (4, 7, 7); (5, 9, 7); (5, 11, 6); (4, 15, 6); (4, 17, 5); (3, 21, 5); (2, 23, 2)] /\
  map (tolls_at take_out) places = [8; 7; 10; 13; 16; 19; 22; 25] /\
  map (bound_at take_out) places = [77; 77; 77; 75; 75; 73; 73; 71].
Proof. repeat split; vm_compute; reflexivity. Qed.

(** Hypotheses met, for the insertion in the middle. *)
Example C97_edit_case : exists n1 z p q, w_focus six_tree 4%N = Ok (n1, Some z) /\ tree_reached false six_tree /\
  p ++ q = contents six_tree /\ session z (sz_at p q) /\ n1 <= seen_from_right p + seen_from_left 0%N q + 1.
Proof.
  assert (R : tree_reached false six_tree) by (apply (drawn_ok _ 6); split; [reflexivity|repeat constructor]).
  assert (F : exists n1 z, w_focus six_tree 4%N = Ok (n1, Some z)) by (do 2 eexists; vm_compute; reflexivity).
  destruct F as (n1 & z & F). destruct (C97_edit nat count _ six_tree _ n1 z R (lawful_count nat) F) as (p & q & X & Ss & N1 & _).
  exists n1, z, p, q. repeat (split; [assumption|]). lia.
Qed.

(** One element inserted after the first [a] archive points. *)
Example C98_case : (forall a b, (N.of_nat (a + b) < 2 ^ 63)%N ->
  on_average (a + b) (fun ws => N.of_nat (insert_moves a ws)) (4 * N.log2 (N.of_nat a) + N.log2 (N.of_nat b) + 8 * N.of_nat 1 + 18)%N) /\
  map (fun a => insert_moves a six) [0; 1; 2; 3; 4; 5; 6] = [11; 15; 13; 13; 11; 11; 8].
Proof.
  split; [|vm_compute; reflexivity]. intros a b Hn. apply (C98_average nat); [lia|lia|].
  intros ws D. exact (insert_moves_ok a b ws Hn D).
Qed.
