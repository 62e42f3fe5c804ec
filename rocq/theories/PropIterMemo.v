(** * The memoised fold over the right iterator (C110). *)

From Verif Require Import Base LevelTreeModel TreeCursorModel CursorScripts MemoModel MemoSpec
  IterMemoModel IterMemoSpec IterMemoProofs.

(** C110. Whatever iterators were folded before, the kept memo table never changes an
    answer. *)
Theorem C110_fold_out_memo : forall (A R : Type) (TU : TreeUpdate A) (eqA : forall x y : A, {x = y} + {x <> y})
  (eqR : forall x y : R, {x = y} + {x <> y}) (bin : R -> A -> R) (rs : list (cursor A * R)),
  (forall r a, In (r, a) rs -> right_iter r) ->
  answer (runs (fun '(r, a) => m_fold_out eqA eqR bin r a) rs no_memos) =
  all_ok (map (fun '(r, a) => fold_out r a bin) rs).
Proof. exact @fold_out_history. Qed.
Print Assumptions C110_fold_out_memo.

(** A second fold stops at the first node where it holds what the first fold held after
    the node of the same name. *)
Theorem C110_fold_out_rerun : forall (A R : Type) (TU : TreeUpdate A) (eqA : forall x y : A, {x = y} + {x <> y})
  (eqR : forall x y : R, {x = y} + {x <> y}) (bin : R -> A -> R)
  c1 a1 c2 a2 x1 x2 tab1 tab2 lg1 lg2 ns1 ns2 m s,
  m_fold_out eqA eqR bin c1 a1 no_memos = Ok (x1, tab1, lg1) ->
  m_fold_out eqA eqR bin c2 a2 tab1 = Ok (x2, tab2, lg2) ->
  passes bin (c1, a1) (ns1 ++ [Some m]) s -> ~ In (Some m) ns1 ->
  passes bin (c2, a2) (ns2 ++ [Some m]) s -> length lg2 <= S (length ns2).
Proof. exact @fold_out_rerun. Qed.
Print Assumptions C110_fold_out_rerun.

(** Also if there were other folds in between, none of which came to a node of that name. *)
Theorem C110_fold_out_later : forall (A R : Type) (TU : TreeUpdate A) (eqA : forall x y : A, {x = y} + {x <> y})
  (eqR : forall x y : R, {x = y} + {x <> y}) (bin : R -> A -> R)
  c1 a1 c2 a2 x1 x2 tab1 tab tab2 lg1 lg2 rs xs lgs ns1 ns2 m s,
  m_fold_out eqA eqR bin c1 a1 no_memos = Ok (x1, tab1, lg1) ->
  runs (fun '(r, a) => m_fold_out eqA eqR bin r a) rs tab1 = Ok (xs, tab, lgs) ->
  (forall lg c, In lg lgs -> In c lg -> peek_name c <> Some m) ->
  m_fold_out eqA eqR bin c2 a2 tab = Ok (x2, tab2, lg2) ->
  passes bin (c1, a1) (ns1 ++ [Some m]) s -> ~ In (Some m) ns1 ->
  passes bin (c2, a2) (ns2 ++ [Some m]) s -> length lg2 <= S (length ns2).
Proof. exact @fold_out_later. Qed.
Print Assumptions C110_fold_out_later.

#[local] Instance keep_nat : TreeUpdate nat := derive_tree_update nat.
#[local] Arguments Node {A} _%N_scope _ _ _ _.
Definition nd (lev : N) (x y : nat) (l r : option (tree nat)) : option (tree nat) :=
  Some (Node lev (Some (NNum (N.of_nat x))) y l r).
(** Names 1 to 7 in order; the second element is the parameter. *)
Definition named_tree (x : nat) : tree nat :=
  Node 5 (Some (NNum 4)) 4 (nd 4 2 x (nd 1 1 1 None None) (nd 4 3 3 None None))
    (nd 5 6 6 (nd 2 5 5 None None) (nd 3 7 7 None None)).
Definition iter_at (t : tree nat) (ms : list move) : res (cursor nat) :=
  do c <- moves (c_from t) ms; do ' (_, _, r) <- into_iters c; Ok r.
Notation fold_max := (m_fold_out Nat.eq_dec Nat.eq_dec max).

(** From the first element on; then again; then from one made one element further on,
    with the accumulator the first had there. *)
Example C110_case : exists r q x y z lg lg2 lg3,
  iter_at (named_tree 2) [MDownLeft; MDownLeft] = Ok r /\ right_iter r /\
  iter_at (named_tree 2) [MDownLeft] = Ok q /\ right_iter q /\
  fold_max r 1 no_memos = Ok (7, x, lg) /\ length lg = 7 /\
  fold_max r 1 x = Ok (7, y, lg2) /\ length lg2 = 1 /\
  fold_max q 2 y = Ok (7, z, lg3) /\ length lg3 = 1 /\
  exists s, passes max (r, 1) ([Some (NNum 2)] ++ [Some (NNum 3)]) s /\ passes max (q, 2) ([] ++ [Some (NNum 3)]) s.
Proof.
  do 8 eexists. split; [vm_compute; reflexivity|].
  split; [eapply (RI_into (snd (down_left (snd (down_left (c_from (named_tree 2))))))); vm_compute; reflexivity|].
  split; [vm_compute; reflexivity|].
  split; [eapply (RI_into (snd (down_left (c_from (named_tree 2))))); vm_compute; reflexivity|].
  split; [vm_compute; reflexivity|]. split; [reflexivity|].
  split; [vm_compute; reflexivity|]. split; [reflexivity|].
  split; [vm_compute; reflexivity|]. split; [reflexivity|].
  eexists. split.
  - eapply (Passes_one max); [vm_compute; reflexivity|]. eapply (Passes_one max); [vm_compute; reflexivity|]. apply Passes_none.
  - eapply (Passes_one max); [vm_compute; reflexivity|]. apply Passes_none.
Qed.

(** With a fold over another tree in between. *)
Example C110_later_case : exists r q o x y z lg lg2 lg3,
  iter_at (named_tree 2) [MDownLeft; MDownLeft] = Ok r /\ iter_at (named_tree 2) [MDownLeft] = Ok q /\
  iter_at (Node 3 (Some (NNum 8)) 8 None (nd 2 9 9 None None)) [] = Ok o /\
  fold_max r 1 no_memos = Ok (7, x, lg) /\ fold_max o 1 x = Ok (9, y, lg2) /\ map peek_name lg2 = [Some (NNum 9); None] /\
  fold_max q 2 y = Ok (7, z, lg3) /\ length lg3 = 1.
Proof.
  do 9 eexists. split; [vm_compute; reflexivity|]. split; [vm_compute; reflexivity|]. split; [vm_compute; reflexivity|].
  split; [vm_compute; reflexivity|]. split; [vm_compute; reflexivity|]. split; [vm_compute; reflexivity|].
  split; [vm_compute; reflexivity|]. reflexivity.
Qed.

(** What one would hope for is false: after a change of the first element that leaves the
    accumulator alone, all the other elements are folded again. The iterator holds the
    trees above it, with the changed element in them. *)
Theorem C110_edit_refuted : exists r q a x rest tab tab' lg lg',
  iter_at (named_tree 2) [MDownLeft; MDownLeft] = Ok r /\ right_iter r /\
  iter_at (named_tree x) [MDownLeft; MDownLeft] = Ok q /\ right_iter q /\
  iter_r_take 7 r = Ok (Some 2 :: rest) /\ iter_r_take 7 q = Ok (Some x :: rest) /\ max a 2 = max a x /\
  fold_max r a no_memos = Ok (a, tab, lg) /\ fold_max q a tab = Ok (a, tab', lg') /\
  map c_peek lg = Some 2 :: rest /\ map c_peek lg' = removelast (Some x :: rest).
Proof.
  do 2 eexists. exists 9, 3. do 5 eexists. split; [vm_compute; reflexivity|].
  split; [eapply (RI_into (snd (down_left (snd (down_left (c_from (named_tree 2))))))); vm_compute; reflexivity|].
  split; [vm_compute; reflexivity|].
  split; [eapply (RI_into (snd (down_left (snd (down_left (c_from (named_tree 3))))))); vm_compute; reflexivity|].
  split; [vm_compute; reflexivity|]. split; [reflexivity|]. split; [reflexivity|].
  split; [vm_compute; reflexivity|]. split; [vm_compute; reflexivity|]. split; reflexivity.
Qed.
Print Assumptions C110_edit_refuted.
