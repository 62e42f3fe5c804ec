(** * Properties of the number of cells an edit changes (C95). *)

From Verif Require Import Base Spec SpecRaz StackModel LevelTreeModel TreeSpec TreeCursorModel RazMetaModel RazModel RazView RazScripts
  RazSession RazReach MemoModel MemoSpec MemoHistory StoreModel StoreSpec StoreScripts StoreProofs StoreHistory StoreLive IncSpec IncCost
  CellSpec CellCost LevelGenModel ChanceSpec Chance ChanceCases ChanceRuns CellRuns PropMemo PropInc PropChance.

(** C95. A program that edits a tree in its namespace (bringing only names not in use)
    leaves the results as they should be and changes at most the cells of the archive
    points that are seen from the edit, of those that it removes, and of names it brings. *)
Theorem C95_cells_changed : forall (E M : Type) (RM : RazMeta E M) (eqE : forall x y : E, {x = y} + {x <> y})
    (eqD : forall x y : tree_data E M, {x = y} + {x <> y}) (q : list name) (t t' : raz_tree E M) pre mid mid' post,
  tree_reached false t -> tree_reached false t' -> orderly_points [contents t'; contents t] ->
  contents t = pre ++ mid ++ post -> contents t' = pre ++ mid' ++ post ->
  forall (cs : list (cmd E Index)) os p',
  p_run [VTree t] cs = Ok (os, p') -> names_ok_run [VTree t] cs -> In (VTree t') p' ->
  forall k st h os' sp' st',
  tree_reads (within q st) h t -> s_run (Nsp := q) k [VTree h] cs st = Ok ((os', sp'), st') ->
  Forall2 (shows (within q st')) sp' p' /\
  exists l, overwritten st st' l /\
    length l <= seen_from_right pre + length (marks mid') + seen_from_left 0%N post + length (marks mid) + length (flat_map c_names cs).
Proof.
  intros E M RM eqE eqD q t t' pre mid mid' post R R' Or C C' cs os p'.
  exact (edit_cells eqD q t t' pre mid mid' post R R' Or C C' eqE cs os p').
Qed.
Print Assumptions C95_cells_changed.

(** On average over the generated levels of the [a] archive points before and the [b]
    after the edit these are few. *)
Theorem C95_average : forall (E M : Type) (RM : RazMeta E M) (eqE : forall x y : E, {x = y} + {x <> y})
    (eqD : forall x y : tree_data E M, {x = y} + {x <> y}) a b k (count : list N -> nat),
  (N.of_nat a < 2 ^ 63)%N -> (N.of_nat b < 2 ^ 63)%N ->
  (forall ws, draws (a + b) ws -> exists q t t' pre mid mid' post (cs : list (cmd E Index)) os p' f st h os' sp' st' l,
    tree_reached false t /\ tree_reached false t' /\ orderly_points [contents t'; contents t] /\
    contents t = pre ++ mid ++ post /\ contents t' = pre ++ mid' ++ post /\
    length (marks mid) + length (marks mid') + length (flat_map c_names cs) <= k /\
    levels_from pre (firstn a ws) /\ levels_from post (skipn a ws) /\
    p_run [VTree t] cs = Ok (os, p') /\ names_ok_run [VTree t] cs /\ In (VTree t') p' /\
    tree_reads (within q st) h t /\ s_run (Nsp := q) f [VTree h] cs st = Ok ((os', sp'), st') /\
    overwritten st st' l /\ length l = count ws) ->
  on_average (a + b) (fun ws => N.of_nat (count ws)) (N.of_nat k + N.log2 (N.of_nat a) + N.log2 (N.of_nat b) + 4)%N.
Proof. intros E M RM eqE eqD. exact (average_cells eqE eqD). Qed.
Print Assumptions C95_average.

(** ** Examples *)
(** The insertions of C79 and C80: of the cells of the six archive points (levels 3, 1, 4,
    2, 5, 1) the 8 changes those of the third, fourth and fifth; the 9 with a seventh point
    before it changes these and makes two. *)
Definition at_point (i : N) : loc := (HOME, NPair (nm_k i) (NStr "tree")).
Lemma with_names : names_ok_run [VTree memo_t0] (with8 0 1) /\ names_ok_run [VTree memo_t1] (with9 0 1).
Proof.
  split; unfold with8, with9; cbn [names_ok_run];
  repeat (split; [unfold names_ok; cbn [c_names names_of point_name option_map app];
    split; [repeat constructor; simpl; intuition discriminate|];
    split; [|intros i v n Q; first [discriminate Q|injection Q as <-]]
  |match goal with |- match ?x with _ => _ end => let y := eval vm_compute in x in change x with y end; cbv iota beta;
   cbn [names_ok_run]]).
  all: try exact I; try (intros n v []).
  all: intros Hv U; apply in_use_value in U; destruct Hv as [<-|[<-|[]]]; vm_compute in U; simpl in *; intuition (subst; discriminate).
Qed.
Lemma first_reads : tree_reads (within HOME (fst x0)) (snd x0) memo_t0 /\ tree_reads (within HOME (fst x1)) (snd x1) memo_t1.
Proof.
  assert (X : forall {A B} (P : A -> B -> Prop) a l b m, Forall2 P (a :: l) (b :: m) -> P a b /\ Forall2 P l m)
    by (intros A B P a l b m H; inversion H; auto).
  destruct C80_case_reads as (_ & _ & F). cbn [rev app] in F. apply X in F. destruct F as [R0 F]. apply X in F. destruct F as [R1 _].
  split; [exact R0|exact R1].
Qed.
Lemma first_reached : tree_reached false memo_t0 /\ tree_reached false memo_t1.
Proof. split; [exact (Forall_inv (Forall_inv_tail (Forall_inv_tail memo_reached)))|exact (Forall_inv (Forall_inv_tail memo_reached))]. Qed.
Lemma later_orderly : orderly_points [contents memo_t2; contents memo_t1].
Proof.
  assert (X : forall a b c : list (atom nat level), orderly_points [a; b; c] -> orderly_points [a; b]).
  { intros a b c ((_ & B1 & B2 & _) & A1 & A2 & A3). cbn [orderly_points]. repeat (split; [auto|]). intros n H.
    destruct (A3 n H) as [Q|Q]; [now left|]. right. intros u [<-|[]]. apply Q. now left. }
  exact (X _ _ _ memo_orderly).
Qed.
Example C95_case :
  overwritten (fst x0) (fst x1) [at_point 3; at_point 4; at_point 5]%N /\
  overwritten (fst x1) (fst x2) [at_point 3; at_point 4; at_point 5; at_point 7; (HOME, nm_k 7)]%N /\
  exists pre mid mid' post, contents memo_t1 = pre ++ mid ++ post /\ contents memo_t2 = pre ++ mid' ++ post /\
    seen_from_right pre + length (marks mid') + seen_from_left 0%N post + length (marks mid) +
    length (flat_map c_names (with9 0 1)) = 6.
Proof.
  destruct first_reads as [R0 R1]. destruct first_reached as [T0 T1].
  pose proof memo_orderly as [O10 _]. destruct with_names as [N8 N9].
  split; [|split].
  - assert (P : exists os p', p_run [VTree memo_t0] (with8 0 1) = Ok (os, p')) by (do 2 eexists; vm_compute; reflexivity).
    destruct P as (os & p' & P).
    enough (Q : diff eq_elts eqC (fst x0) (fst x1) (map at_point [1; 2; 3; 4; 5; 6]%N) = [at_point 3; at_point 4; at_point 5]%N).
    { rewrite <- Q. apply diff_overwritten. intros a D.
      destruct (s_run (Nsp := HOME) 80 [VTree (snd x0)] (with8 0 1) (fst x0)) as [[[o sp] st]| |] eqn:X;
        [|vm_compute in X; discriminate X|vm_compute in X; discriminate X].
      assert (Y : fst x1 = st) by (unfold x1, go; cbn [map]; now rewrite X). rewrite Y in D.
      destruct (footprint HOME memo_t0 memo_t1 T0 O10 (with8 0 1) _ _ P N8 80 (fst x0) (snd x0) o sp st R0 X a D) as [Z I].
      destruct a as [a n]. cbn [fst snd] in Z, I. subst a. vm_compute in I. vm_compute.
      repeat (destruct I as [<-|I]; [tauto|]). destruct I. }
    vm_compute. reflexivity.
  - assert (P : exists os p', p_run [VTree memo_t1] (with9 0 1) = Ok (os, p')) by (do 2 eexists; vm_compute; reflexivity).
    destruct P as (os & p' & P).
    enough (Q : diff eq_elts eqC (fst x1) (fst x2) (map at_point [1; 2; 3; 4; 5; 6; 7]%N ++ [(HOME, nm_k 7%N)]) =
      [at_point 3; at_point 4; at_point 5; at_point 7; (HOME, nm_k 7)]%N).
    { rewrite <- Q. apply diff_overwritten. intros a D.
      destruct (s_run (Nsp := HOME) 80 [VTree (snd x1)] (with9 0 1) (fst x1)) as [[[o sp] st]| |] eqn:X;
        [|vm_compute in X; discriminate X|vm_compute in X; discriminate X].
      assert (Y : fst x2 = st) by (unfold x2, go; cbn [map]; now rewrite X). rewrite Y in D.
      destruct (footprint HOME memo_t1 memo_t2 T1 later_orderly (with9 0 1) _ _ P N9 80 (fst x1) (snd x1) o sp st R1 X a D) as [Z I].
      destruct a as [a n]. cbn [fst snd] in Z, I. subst a. vm_compute in I. vm_compute.
      repeat (destruct I as [<-|I]; [tauto|]). destruct I. }
    vm_compute. reflexivity.
  - exists (firstn 10 (contents memo_t1)), [], (firstn 2 (skipn 10 (contents memo_t2))), (skipn 10 (contents memo_t1)).
    repeat split; vm_compute; reflexivity.
Qed.

(** An element inserted after the first [a] archive points of trees of [a + b] of them. *)
Example C95_average_case : (forall q a b (Hn : (N.of_nat (a + b) < 2 ^ 63)%N),
  on_average (a + b) (fun ws => N.of_nat (insert_cells q a b Hn ws)) (N.of_nat 0 + N.log2 (N.of_nat a) + N.log2 (N.of_nat b) + 4)%N) /\
  map (fun a => length (cells_after HOME a 6 (whole HOME a six 80))) [0; 1; 2; 3; 4; 5; 6] = [3; 4; 4; 3; 3; 2; 2].
Proof.
  split; [|vm_compute; reflexivity]. intros q a b Hn.
  apply (C95_average nat count _ Nat.eq_dec eq_node a b 0); [lia|lia|].
  intros ws D. exact (insert_ok q a b Hn ws D).
Qed.
