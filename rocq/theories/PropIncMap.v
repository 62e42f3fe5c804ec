(** * The memoised [map] over the store: answers, and the work of a rerun. *)

From Verif Require Import Base Spec SpecRaz LevelTreeModel TreeCursorModel RazMetaModel RazModel RazView RazScripts MemoModel MemoSpec StoreModel
  StoreSpec StoreScripts StoreNs StoreMapSpec IncModel IncSpec IncMapModel IncMapProofs IncMapCost PropMemo PropInc IncMapSpec.

(** ** C99: whatever ran before, [map] makes a tree that reads as the mapped sequence *)
Theorem C99_map : forall (E M : Type) (RM : RazMeta E M) (eqD : forall x y : tree_data E M, {x = y} + {x <> y}) (Nsp : here)
    (f : E -> E) (t t' : raz_tree E M),
  rt_map f t = Ok t' -> NoDup (node_names t) ->
  exists k0, forall k hist tab st h, k0 <= k -> ran (fun k => u_rt_map eqD k f) hist tab -> tree_reads st h t ->
  exists h' st' tr tab' lg, u_rt_map eqD k f h st tab = Ok (h', st', tr, tab', lg) /\ tree_reads st' h' t' /\
    (forall b, fst b <> path \/ ~ In (snd b) (node_names t) -> st' b = st b) /\
    (tree_reads (without path st) h t -> tree_reads st' h t).
Proof. intros E M RM eqD Nsp f t t' H Nd. exact (next_map eqD f t t' H Nd). Qed.
Print Assumptions C99_map.

(** ** C100: how much of it runs again, and which cells it writes *)
Theorem C100_rerun_map : forall (E M : Type) (RM : RazMeta E M) (eqD : forall x y : tree_data E M, {x = y} + {x <> y})
    (q : list name) (Nsp : here) (f : E -> E) (t t' : raz_tree E M) older pre mid mid' post e hist tab,
  q <> path ->
  Forall (fun t => tree_reached false t) (t' :: t :: older) ->
  orderly_points (map contents (t' :: t :: older)) ->
  contents t = pre ++ mid ++ post -> contents t' = pre ++ mid' ++ post ->
  ran (fun k => u_rt_map eqD k f) (e :: hist) tab -> undisturbed path (e :: hist) ->
  Forall2 (fun e t => tree_reads (within q (before e)) (given e) t) (e :: hist) (t' :: t :: older) ->
  length (entered e) <= 1 + 2 * (seen_from_right pre + length (marks mid') + seen_from_left 0%N post) /\
  forall b, after e b = before e b \/ fst b = path /\ exists h, In h (entered e) /\ st_name h = Some (snd b).
Proof.
  intros E M RM eqD q Nsp f t t' older pre mid mid' post e hist tab D Re Op C C' R U F.
  exact (map_again eqD q D f t t' older pre mid mid' post e hist tab Re Op C C' R U F).
Qed.
Print Assumptions C100_rerun_map.

(** ** Examples *)
Definition MAPS := [NStr "maps"].
Notation mevent := (event (level * list nat) (tree_data nat count) (sraz_tree nat count) (sraz_tree nat count)).
Notation mtable := (itab (tree_data nat count) (stree (tree_data nat count)) (stree (tree_data nat count))).
Definition succs := fun k => u_rt_map (Nsp := MAPS) eqC k S.
Definition gone : sraz_tree nat count := SRazTree (Count 0%N) None.
Definition again (x : mstate) (tab : mtable) : mevent * mtable :=
  match succs 80 (snd x) (fst x) tab with
  | Ok (y, st', _, tab', lg) => (Event (fst x) (snd x) y st' lg, tab')
  | _ => (Event (fst x) (snd x) gone (fst x) [], tab)
  end.

(** The tree of C80 made in [HOME] and mapped; 8 is inserted and it is mapped; 9 is inserted
    and it is mapped; it is mapped once more. *)
Definition y0 := again x0 no_entries.
Definition y1 := again (go (with8 0 1) [snd x0] (after (fst y0))) (snd y0).
Definition y2 := again (go (with9 0 1) [given (fst y1)] (after (fst y1))) (snd y1).
Definition y3 := again (after (fst y2), given (fst y2)) (snd y2).
Definition succ_t t : raz_tree nat count := match rt_map (RN := count_meta nat) S t with Ok t' => t' | _ => t end.
Lemma ran_again : forall x h tab, (match succs 80 (snd x) (fst x) tab with Ok _ => true | _ => false end) = true ->
  ran succs h tab -> ran succs (fst (again x tab) :: h) (snd (again x tab)).
Proof.
  intros x h tab G H. unfold again. destruct (succs 80 (snd x) (fst x) tab) as [[[[[y st'] tr] tab'] lg]| |] eqn:Q; try discriminate.
  exact (ran_more succs h tab 80 (fst x) (snd x) y st' tr tab' lg H Q).
Qed.
Lemma go_elsewhere : forall cs hs st n, fst (go cs hs st) (MAPS, n) = st (MAPS, n).
Proof.
  intros cs hs st n. unfold go. destruct (s_run 80 (map VTree hs) cs st) as [[[os sp] st']| |] eqn:Q; [|reflexivity..].
  apply (run_isolated _ _ _ _ _ _ _ Q). discriminate.
Qed.
Lemma again_before : forall x tab, before (fst (again x tab)) = fst x.
Proof. intros x tab. unfold again. now destruct (succs 80 (snd x) (fst x) tab) as [[[[[y st'] tr] tab'] lg]| |]. Qed.
Definition found (st : store (level * list nat) (tree_data nat count)) (h : sraz_tree nat count) : option (tree (tree_data nat count)) :=
  match srt_tree h with Some s => match st_read 80 s st with Ok (u, _) => Some u | _ => None end | None => None end.
Lemma reads_by : forall st h t, srt_meta h = rt_meta t /\
  match rt_tree t with Some u => found st h = Some u | None => srt_tree h = None end -> tree_reads st h t.
Proof.
  intros st h t [Em H]. split; [exact Em|]. unfold found in H. destruct (srt_tree h) as [s|], (rt_tree t) as [u|]; try discriminate; auto.
  exact (read_gives st s u 80 H).
Qed.
Lemma ran_y2 : ran succs [fst y2; fst y1; fst y0] (snd y2).
Proof.
  refine (ran_again (go (with9 0 1) [given (fst y1)] (after (fst y1))) _ (snd y1) _ _); [vm_compute; reflexivity|].
  refine (ran_again (go (with8 0 1) [snd x0] (after (fst y0))) _ (snd y0) _ _); [vm_compute; reflexivity|].
  refine (ran_again x0 _ no_entries _ _); [vm_compute; reflexivity|]. exact (ran_none succs).
Qed.
Lemma Forall2_tl : forall (X Y : Type) (P : X -> Y -> Prop) x xs y ys, Forall2 P (x :: xs) (y :: ys) -> Forall2 P xs ys.
Proof. intros X Y P x xs y ys H. now inversion H. Qed.
Example C100_case_ran : ran succs [fst y3; fst y2; fst y1; fst y0] (snd y3) /\
  undisturbed MAPS [fst y3; fst y2; fst y1; fst y0] /\
  Forall2 (fun e t => tree_reads (within HOME (before e)) (given e) t) [fst y3; fst y2; fst y1; fst y0] [memo_t2; memo_t2; memo_t1; memo_t0].
Proof.
  split; [|split].
  - refine (ran_again (after (fst y2), given (fst y2)) _ (snd y2) _ _); [vm_compute; reflexivity|exact ran_y2].
  - cbn [undisturbed].
    assert (B1 : before (fst y1) = fst (go (with8 0 1) [snd x0] (after (fst y0)))) by exact (again_before (go (with8 0 1) [snd x0] (after (fst y0))) (snd y0)).
    assert (B2 : before (fst y2) = fst (go (with9 0 1) [given (fst y1)] (after (fst y1)))) by exact (again_before (go (with9 0 1) [given (fst y1)] (after (fst y1))) (snd y1)).
    assert (B3 : before (fst y3) = after (fst y2)) by exact (again_before (after (fst y2), given (fst y2)) (snd y2)).
    split; [split; [split; [split; exact I|]|]|]; intros n.
    + rewrite B1. exact (go_elsewhere _ _ _ n).
    + rewrite B2. exact (go_elsewhere _ _ _ n).
    + now rewrite B3.
  - repeat (apply Forall2_cons; [apply reads_by; vm_compute; split; reflexivity|]). apply Forall2_nil.
Qed.
(** 13 nodes at first, then 4 and 6 and 1; what was made reads as the mapped tree. *)
Example C100_case : map (fun e : mevent => length (entered e)) [fst y0; fst y1; fst y2; fst y3] = [13; 4; 6; 1].
Proof. vm_compute. reflexivity. Qed.
Example C99_case : NoDup (node_names memo_t2) /\
  exists t', rt_map (RM := count_meta nat) (RN := count_meta nat) S memo_t2 = Ok t' /\ tree_reads (after (fst y3)) (result (fst y3)) t' /\
  elts (contents t') = [2; 3; 4; 5; 6; 9; 10; 7; 8].
Proof.
  split; [vm_compute; repeat (constructor; [simpl; intuition discriminate|]); constructor|].
  eexists. split; [vm_compute; reflexivity|]. split; [apply reads_by; vm_compute; split; reflexivity|]. vm_compute. reflexivity.
Qed.
(** A cell of the result overwritten by another: the next run makes it again. *)
Definition y4 := again (write (after (fst y3)) (MAPS, NPair (nm_k 3) (NStr "tree")) (CNode (Leaf [99]) None None), given (fst y3)) (snd y3).
Example C99_case_overwritten : ran succs [fst y4; fst y3; fst y2; fst y1; fst y0] (snd y4) /\ length (entered (fst y4)) = 2 /\
  found (after (fst y4)) (result (fst y4)) = found (after (fst y3)) (result (fst y3)) /\
  found (before (fst y4)) (result (fst y3)) <> found (after (fst y3)) (result (fst y3)).
Proof.
  split; [|vm_compute; split; [reflexivity|split; [reflexivity|discriminate]]].
  refine (ran_again (write (after (fst y3)) (MAPS, NPair (nm_k 3) (NStr "tree")) (CNode (Leaf [99]) None None), given (fst y3)) _ (snd y3) _ (proj1 C100_case_ran)).
  vm_compute. reflexivity.
Qed.
(** The bound, for the third run: 9 after a new point, between the 8 and the point 5:5. *)
Example C100_case_bound : exists pre mid mid' post, contents memo_t1 = pre ++ mid ++ post /\ contents memo_t2 = pre ++ mid' ++ post /\
  length (entered (fst y2)) <= 1 + 2 * (seen_from_right pre + length (marks mid') + seen_from_left 0%N post) /\
  1 + 2 * (seen_from_right pre + length (marks mid') + seen_from_left 0%N post) = 9.
Proof.
  exists (firstn 10 (contents memo_t1)), [], (firstn 2 (skipn 10 (contents memo_t2))), (skipn 10 (contents memo_t1)).
  split; [vm_compute; reflexivity|]. split; [vm_compute; reflexivity|]. split; [|vm_compute; reflexivity].
  destruct C100_case_ran as (R & U & F).
  apply (C100_rerun_map nat count (count_meta nat) eqC HOME MAPS S memo_t1 memo_t2 [memo_t0] _ [] _ _ (fst y2) [fst y1; fst y0] (snd y2)).
  - discriminate.
  - exact memo_reached.
  - exact memo_orderly.
  - vm_compute. reflexivity.
  - vm_compute. reflexivity.
  - exact ran_y2.
  - exact (proj1 U).
  - exact (Forall2_tl _ _ _ _ _ _ _ F).
Qed.
