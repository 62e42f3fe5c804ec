(** * The repository's randomised tests, for everything they can draw (C101). *)

From Verif Require Import Base RazMetaModel RazModel LevelGenModel TestsSpec TestsModel TestsProofs.

#[local] Open Scope N_scope.

(** C101. test_names_many_edits with any number of elements and any number of edits:
    the names before and after are those of all elements but the last, in order. *)
Theorem C101_names_many_edits : forall words draws,
  words <> [] -> Forall (fun w => w < 2 ^ 64) words ->
  N.of_nat (length words + length draws) < usize_mod ->
  test_names_many_edits words draws = Ok (named_list (length words - 1)).
Proof. exact names_test. Qed.
Print Assumptions C101_names_many_edits.

Example C101_names_case :
  let words := [5; 8; 2; 16; 1] in let draws := [(7, true); (0, false); (2 ^ 63, true); (4, false)] in
  words <> [] /\ Forall (fun w => w < 2 ^ 64) words /\ N.of_nat (length words + length draws) < usize_mod /\
  test_names_many_edits words draws =
    Ok [Some (index_name 0); Some (index_name 1); Some (index_name 2); Some (index_name 3)].
Proof.
  split; [discriminate|]. split; [repeat constructor|]. split; [reflexivity|]. vm_compute. reflexivity.
Qed.

(** test_name_indexes with an archive point after every [gauge] elements. *)
Theorem C101_name_indexes : forall gauge points word ws,
  1 < gauge -> 0 < points -> (forall i, word i < 2 ^ 64) ->
  test_name_indexes gauge points word ws = Ok (map (fun w => w mod points * gauge) ws).
Proof.
  intros gauge points word ws G P W.
  exact (index_test gauge word (N.lt_trans _ _ _ N.lt_0_1 G) W points ws G P).
Qed.
Print Assumptions C101_name_indexes.

Example C101_indexes_case : let word := fun i => 3 * i + 4 in
  (forall i, i < 12 -> word i < 2 ^ 64) /\
  test_name_indexes 3 4 (fun i => word i mod 2 ^ 64) [0; 7; 2 ^ 64 - 2; 5] = Ok [0; 9; 6; 3].
Proof. split; [intros i H; cbv beta zeta; lia|]. vm_compute. reflexivity. Qed.

(** With one after every element the test would fail for the last value. *)
Theorem C101_name_indexes_every_element_refuted : forall points word w,
  1 < points -> (forall i, word i < 2 ^ 64) -> w mod points = points - 1 ->
  test_name_indexes 1 points word [w] = Panic "called `Option::unwrap()` on a `None` value".
Proof.
  intros points word w P W L. exact (index_test_every 1 word N.lt_0_1 W points w eq_refl P L).
Qed.
Print Assumptions C101_name_indexes_every_element_refuted.

Example C101_every_case : test_name_indexes 1 3 (fun _ => 1) [5] =
  Panic "called `Option::unwrap()` on a `None` value" /\
  test_name_indexes 1 3 (fun _ => 1) [4; 3] = Ok [1; 0].
Proof. split; vm_compute; reflexivity. Qed.

(** skiplist_vs_hashmap with any hash function, path length, number of keys, gauge. *)
Theorem C101_skiplist_vs_hashmap : forall hash debug len numkeys gauge draws,
  (0 < len)%nat -> (debug = true -> (len < 64)%nat) -> 0 < numkeys -> 0 < gauge ->
  test_skiplist_vs_hashmap hash debug len numkeys gauge draws = Ok (skip_answers numkeys [] draws).
Proof. exact skip_test. Qed.
Print Assumptions C101_skiplist_vs_hashmap.

Example C101_skiplist_case :
  test_skiplist_vs_hashmap (fun k => k mod 2) true 8 5 2
    [(1, 2, 1); (3, 4, 11); (6, 3, 1); (13, 9, 3); (0, 0, 8); (0, 0, 3)]
  = Ok [Some 2; Some 2; Some 3; Some 4; None; Some 4].
Proof. vm_compute. reflexivity. Qed.
