(** * The memoised examples reverse and filter over the store: answers, and the work of a rerun. *)

From Verif Require Import Base Spec SpecRaz LevelTreeModel TreeCursorModel RazMetaModel RazModel RazView RazScripts MemoModel MemoSpec ExampleModel
  ExampleSpec StoreModel StoreSpec StoreScripts StoreNs StoreMapSpec IncModel IncSpec IncMapModel BuildIncModel BuildIncProofs BuildIncCost
  PropMemo PropInc PropIncMap IncMapSpec.

(** ** C111: whatever ran before, they make a tree that reads as the reversed, or as the
    filtered, sequence; the argument stays as it was unless it lies where they write *)
Theorem C111_reverse : forall (E M : Type) (RM : RazMeta E M) (eqD : forall x y : tree_data E M, {x = y} + {x <> y}) (Nsp : here)
    free (t : raz_tree E M),
  tree_reached free t -> contents t <> [] -> NoDup (node_names t) ->
  exists t', tree_reached true t' /\ contents t' = rev (contents t) /\
  exists k0, forall k hist tab st h, k0 <= k -> ran (u_reverse eqD) hist tab -> tree_reads st h t ->
  exists h' st' tr tab' lg, u_reverse eqD k h st tab = Ok (Some h', st', tr, tab', lg) /\ tree_reads st' h' t' /\
    (forall b, fst b <> NStr "reverse" :: path \/ ~ In (snd b) (node_names t) -> st' b = st b) /\
    (tree_reads (without (NStr "reverse" :: path) st) h t -> tree_reads st' h t).
Proof. intros E M RM eqD Nsp free t Re Ne Nd. exact (next_reverse eqD free t Re Ne Nd). Qed.
Print Assumptions C111_reverse.

Theorem C111_filter : forall (E M : Type) (RM : RazMeta E M) (eqD : forall x y : tree_data E M, {x = y} + {x <> y}) (Nsp : here)
    free (p : E -> bool) (t : raz_tree E M),
  tree_reached free t -> contents t <> [] -> NoDup (node_names t) ->
  exists t', tree_reached true t' /\ elts (contents t') = filter p (elts (contents t)) /\
    (free = false -> contents t' = filtered p (contents t)) /\
  exists k0, forall k hist tab st h, k0 <= k -> ran (u_filter eqD p) hist tab -> tree_reads st h t ->
  exists h' st' tr tab' lg, u_filter eqD p k h st tab = Ok (Some h', st', tr, tab', lg) /\ tree_reads st' h' t' /\
    (forall b, fst b <> NStr "filter" :: path \/ ~ In (snd b) (node_names t) -> st' b = st b) /\
    (tree_reads (without (NStr "filter" :: path) st) h t -> tree_reads st' h t).
Proof. intros E M RM eqD Nsp free p t Re Ne Nd. exact (next_filter eqD free p t Re Ne Nd). Qed.
Print Assumptions C111_filter.

(** ** C112: how much of them runs again, and which cells they write *)
Theorem C112_rerun_reverse : forall (E M : Type) (RM : RazMeta E M) (eqD : forall x y : tree_data E M, {x = y} + {x <> y})
    (q : list name) (Nsp : here) (t t' : raz_tree E M) older pre mid mid' post e hist tab,
  q <> NStr "reverse" :: path ->
  Forall (fun t => tree_reached false t) (t' :: t :: older) ->
  orderly_points (map contents (t' :: t :: older)) ->
  contents t = pre ++ mid ++ post -> contents t' = pre ++ mid' ++ post ->
  ran (u_reverse eqD) (e :: hist) tab -> undisturbed (NStr "reverse" :: path) (e :: hist) ->
  Forall2 (fun e t => tree_reads (within q (before e)) (given e) t) (e :: hist) (t' :: t :: older) ->
  length (entered e) <= 1 + 2 * (seen_from_right pre + length (marks mid') + seen_from_left 0%N post) /\
  forall b, after e b = before e b \/ fst b = NStr "reverse" :: path /\ exists h, In h (entered e) /\ st_name h = Some (snd b).
Proof.
  intros E M RM eqD q Nsp t t' older pre mid mid' post e hist tab D Re Op C C' R U F.
  exact (gauged_again eqD (NStr "reverse") (@rev E) (u_reverse_bin (NStr "reverse")) reverse_bin (reverse_bin_cells eqD _) reverse_bin_names
    (reverse_bin_keeps _) q t t' older pre mid mid' post e hist tab D Re Op C C' R U F).
Qed.
Print Assumptions C112_rerun_reverse.

Theorem C112_rerun_filter : forall (E M : Type) (RM : RazMeta E M) (eqD : forall x y : tree_data E M, {x = y} + {x <> y})
    (q : list name) (Nsp : here) (p : E -> bool) (t t' : raz_tree E M) older pre mid mid' post e hist tab,
  q <> NStr "filter" :: path ->
  Forall (fun t => tree_reached false t) (t' :: t :: older) ->
  orderly_points (map contents (t' :: t :: older)) ->
  contents t = pre ++ mid ++ post -> contents t' = pre ++ mid' ++ post ->
  ran (u_filter eqD p) (e :: hist) tab -> undisturbed (NStr "filter" :: path) (e :: hist) ->
  Forall2 (fun e t => tree_reads (within q (before e)) (given e) t) (e :: hist) (t' :: t :: older) ->
  length (entered e) <= 1 + 2 * (seen_from_right pre + length (marks mid') + seen_from_left 0%N post) /\
  forall b, after e b = before e b \/ fst b = NStr "filter" :: path /\ exists h, In h (entered e) /\ st_name h = Some (snd b).
Proof.
  intros E M RM eqD q Nsp p t t' older pre mid mid' post e hist tab D Re Op C C' R U F.
  exact (gauged_again eqD (NStr "filter") (filter p) (u_filter_bin (NStr "filter")) filter_bin (filter_bin_cells eqD _) filter_bin_names
    (filter_bin_keeps _) q t t' older pre mid mid' post e hist tab D Re Op C C' R U F).
Qed.
Print Assumptions C112_rerun_filter.

(** ** Examples *)
Definition BUILD := [NStr "build"].
Notation bevent := (event (level * list nat) (tree_data nat count) (sraz_tree nat count) (option (sraz_tree nat count))).
Notation btable := (itab (tree_data nat count) (stree (tree_data nat count)) (sraz_tree nat count)).
Notation builder := (nat -> sraz_tree nat count ->
  um (level * list nat) (tree_data nat count) (stree (tree_data nat count)) (sraz_tree nat count) (option (sraz_tree nat count))).
Definition revs : builder := u_reverse (Nsp := BUILD) eqC.
Definition evens : builder := u_filter (Nsp := BUILD) eqC Nat.even.
Definition built (run : builder) (x : mstate) (tab : btable) : bevent * btable :=
  match run 80 (snd x) (fst x) tab with
  | Ok (y, st', _, tab', lg) => (Event (fst x) (snd x) y st' lg, tab')
  | _ => (Event (fst x) (snd x) None (fst x) [], tab)
  end.
Definition kept (o : option (sraz_tree nat count)) : sraz_tree nat count := match o with Some h => h | None => gone end.

(** The tree of C80, made in [HOME]; 8 is inserted; 9 is inserted; nothing is changed. *)
Definition b0 run := built run x0 no_entries.
Definition b1 run := built run (go (with8 0 1) [snd x0] (after (fst (b0 run)))) (snd (b0 run)).
Definition b2 run := built run (go (with9 0 1) [given (fst (b1 run))] (after (fst (b1 run)))) (snd (b1 run)).
Definition b3 run := built run (after (fst (b2 run)), given (fst (b2 run))) (snd (b2 run)).
Lemma ran_built : forall run x h tab, (match run 80 (snd x) (fst x) tab with Ok _ => true | _ => false end) = true ->
  ran run h tab -> ran run (fst (built run x tab) :: h) (snd (built run x tab)).
Proof.
  intros run x h tab G H. unfold built. destruct (run 80 (snd x) (fst x) tab) as [[[[[y st'] tr] tab'] lg]| |] eqn:Q; try discriminate.
  exact (ran_more run h tab 80 (fst x) (snd x) y st' tr tab' lg H Q).
Qed.
Lemma go_other : forall cs hs st p n, p <> HOME -> fst (go cs hs st) (p, n) = st (p, n).
Proof.
  intros cs hs st p n D. unfold go. destruct (s_run 80 (map VTree hs) cs st) as [[[os sp] st']| |] eqn:Q; [|reflexivity..].
  apply (run_isolated _ _ _ _ _ _ _ Q). exact D.
Qed.
Lemma built_before : forall run x tab, before (fst (built run x tab)) = fst x.
Proof. intros run x tab. unfold built. now destruct (run 80 (snd x) (fst x) tab) as [[[[[y st'] tr] tab'] lg]| |]. Qed.
Lemma built_undisturbed : forall run p, p <> HOME -> undisturbed p [fst (b3 run); fst (b2 run); fst (b1 run); fst (b0 run)].
Proof.
  intros run p D. cbn [undisturbed].
  assert (B1 : before (fst (b1 run)) = fst (go (with8 0 1) [snd x0] (after (fst (b0 run))))) by apply built_before.
  assert (B2 : before (fst (b2 run)) = fst (go (with9 0 1) [given (fst (b1 run))] (after (fst (b1 run))))) by apply built_before.
  assert (B3 : before (fst (b3 run)) = after (fst (b2 run))) by apply built_before.
  split; [split; [split; [split; exact I|]|]|]; intros n.
  - rewrite B1. exact (go_other _ _ _ _ n D).
  - rewrite B2. exact (go_other _ _ _ _ n D).
  - now rewrite B3.
Qed.
Example C112_case_reverse_ran : ran revs [fst (b3 revs); fst (b2 revs); fst (b1 revs); fst (b0 revs)] (snd (b3 revs)) /\
  Forall2 (fun e t => tree_reads (within HOME (before e)) (given e) t)
    [fst (b3 revs); fst (b2 revs); fst (b1 revs); fst (b0 revs)] [memo_t2; memo_t2; memo_t1; memo_t0].
Proof.
  split.
  - do 4 (apply ran_built; [vm_compute; reflexivity|]). apply ran_none.
  - repeat (apply Forall2_cons; [apply reads_by; vm_compute; split; reflexivity|]). apply Forall2_nil.
Qed.
Example C112_case_filter_ran : ran evens [fst (b3 evens); fst (b2 evens); fst (b1 evens); fst (b0 evens)] (snd (b3 evens)) /\
  Forall2 (fun e t => tree_reads (within HOME (before e)) (given e) t)
    [fst (b3 evens); fst (b2 evens); fst (b1 evens); fst (b0 evens)] [memo_t2; memo_t2; memo_t1; memo_t0].
Proof.
  split.
  - do 4 (apply ran_built; [vm_compute; reflexivity|]). apply ran_none.
  - repeat (apply Forall2_cons; [apply reads_by; vm_compute; split; reflexivity|]). apply Forall2_nil.
Qed.
(** 13 nodes at first, then 4 and 6 and 1; what was made reads as the reversed and as the
    filtered sequence. *)
Example C112_case : map (fun e : bevent => length (entered e)) [fst (b0 revs); fst (b1 revs); fst (b2 revs); fst (b3 revs)] = [13; 4; 6; 1] /\
  map (fun e : bevent => length (entered e)) [fst (b0 evens); fst (b1 evens); fst (b2 evens); fst (b3 evens)] = [13; 4; 6; 1].
Proof. split; vm_compute; reflexivity. Qed.
Example C111_case_reverse : NoDup (node_names memo_t2) /\ contents memo_t2 <> [] /\
  exists t', reverse_tree memo_t2 = Ok (Some t') /\ tree_reads (after (fst (b3 revs))) (kept (result (fst (b3 revs)))) t' /\
  tree_reads (after (fst (b3 revs))) (given (fst (b3 revs))) memo_t2 /\ elts (contents t') = [7; 6; 9; 8; 5; 4; 3; 2; 1].
Proof.
  split; [vm_compute; repeat (constructor; [simpl; intuition discriminate|]); constructor|]. split; [discriminate|].
  eexists. split; [vm_compute; reflexivity|]. split; [apply reads_by; vm_compute; split; reflexivity|].
  split; [apply reads_by; vm_compute; split; reflexivity|]. vm_compute. reflexivity.
Qed.
Example C111_case_filter : exists t', filter_tree Nat.even memo_t2 = Ok (Some t') /\
  tree_reads (after (fst (b3 evens))) (kept (result (fst (b3 evens)))) t' /\
  tree_reads (after (fst (b3 evens))) (given (fst (b3 evens))) memo_t2 /\
  elts (contents t') = [2; 4; 8; 6] /\ contents t' = filtered Nat.even (contents memo_t2).
Proof.
  eexists. split; [vm_compute; reflexivity|]. split; [apply reads_by; vm_compute; split; reflexivity|].
  split; [apply reads_by; vm_compute; split; reflexivity|]. split; vm_compute; reflexivity.
Qed.
(** A cell of the result overwritten by another: the next run makes it again. *)
Definition spoiled : store (level * list nat) (tree_data nat count) :=
  write (after (fst (b3 revs))) (NStr "reverse" :: BUILD, NPair (nm_k 3) (NStr "tree")) (CNode (Leaf [99]) None None).
Definition b4 := built revs (spoiled, given (fst (b3 revs))) (snd (b3 revs)).
Example C111_case_overwritten : ran revs [fst b4; fst (b3 revs); fst (b2 revs); fst (b1 revs); fst (b0 revs)] (snd b4) /\
  found (after (fst b4)) (kept (result (fst b4))) = found (after (fst (b3 revs))) (kept (result (fst (b3 revs)))) /\
  found spoiled (kept (result (fst (b3 revs)))) <> found (after (fst (b3 revs))) (kept (result (fst (b3 revs)))).
Proof.
  split; [apply ran_built; [vm_compute; reflexivity|exact (proj1 C112_case_reverse_ran)]|]. vm_compute. split; [reflexivity|discriminate].
Qed.
(** Reversing the reversed tree in the same namespace makes the first tree again, in the
    cells of the reversed one: the last conclusion of C111 needs its premise. *)
Definition b5 := built revs (after (fst (b3 revs)), kept (result (fst (b3 revs)))) (snd (b3 revs)).
Definition turned (t : raz_tree nat count) : raz_tree nat count := match reverse_tree t with Ok (Some t') => t' | _ => t end.
Lemma reads_only : forall st h t u, tree_reads st h t -> found st h = Some u -> rt_tree t = Some u.
Proof.
  intros st h t u [_ H] F. unfold found in F. destruct (srt_tree h) as [s|], (rt_tree t) as [v|]; try contradiction; try discriminate.
  f_equal. destruct (st_read 80 s st) as [[w st']| |] eqn:Q; try discriminate. injection F as ->.
  exact (reads_one st s v u H (ex_intro _ 80 (read_here 80 s st u st' Q))).
Qed.
Theorem C111_in_place_refuted : exists (e : bevent) hist tab (t t' : raz_tree nat count), ran revs (e :: hist) tab /\
  tree_reads (before e) (given e) t /\ NoDup (node_names t) /\ tree_reads (after e) (kept (result e)) t' /\ contents t' = rev (contents t) /\
  ~ tree_reads (after e) (given e) t.
Proof.
  exists (fst b5), [fst (b3 revs); fst (b2 revs); fst (b1 revs); fst (b0 revs)], (snd b5), (turned memo_t2), (turned (turned memo_t2)).
  split; [apply ran_built; [vm_compute; reflexivity|exact (proj1 C112_case_reverse_ran)]|].
  split; [apply reads_by; vm_compute; split; reflexivity|].
  split; [vm_compute; repeat (constructor; [simpl; intuition discriminate|]); constructor|].
  split; [apply reads_by; vm_compute; split; reflexivity|]. split; [vm_compute; reflexivity|].
  intros H. pose proof (fun u => reads_only _ _ _ u H) as Q. specialize (Q match rt_tree (turned (turned memo_t2)) with Some u => u | None => Node 0%N None Dummy None None end).
  vm_compute in Q. specialize (Q eq_refl). discriminate.
Qed.
Print Assumptions C111_in_place_refuted.

(** The bound, for the third run: 9 after a new point, between the 8 and the point 5:5. *)
Example C112_case_bound : exists pre mid mid' post, contents memo_t1 = pre ++ mid ++ post /\ contents memo_t2 = pre ++ mid' ++ post /\
  length (entered (fst (b2 revs))) <= 1 + 2 * (seen_from_right pre + length (marks mid') + seen_from_left 0%N post) /\
  length (entered (fst (b2 evens))) <= 1 + 2 * (seen_from_right pre + length (marks mid') + seen_from_left 0%N post) /\
  1 + 2 * (seen_from_right pre + length (marks mid') + seen_from_left 0%N post) = 9.
Proof.
  exists (firstn 10 (contents memo_t1)), [], (firstn 2 (skipn 10 (contents memo_t2))), (skipn 10 (contents memo_t1)).
  split; [vm_compute; reflexivity|]. split; [vm_compute; reflexivity|]. split; [|split; [|vm_compute; reflexivity]].
  - destruct C112_case_reverse_ran as (_ & F). pose proof (built_undisturbed revs (NStr "reverse" :: BUILD) ltac:(discriminate)) as U.
    apply (C112_rerun_reverse nat count (count_meta nat) eqC HOME BUILD memo_t1 memo_t2 [memo_t0] _ [] _ _ (fst (b2 revs)) [fst (b1 revs); fst (b0 revs)]
      (snd (b2 revs))).
    + discriminate.
    + exact memo_reached.
    + exact memo_orderly.
    + vm_compute. reflexivity.
    + vm_compute. reflexivity.
    + do 3 (apply ran_built; [vm_compute; reflexivity|]). apply ran_none.
    + exact (proj1 U).
    + exact (Forall2_tl _ _ _ _ _ _ _ F).
  - destruct C112_case_filter_ran as (_ & F). pose proof (built_undisturbed evens (NStr "filter" :: BUILD) ltac:(discriminate)) as U.
    apply (C112_rerun_filter nat count (count_meta nat) eqC HOME BUILD Nat.even memo_t1 memo_t2 [memo_t0] _ [] _ _ (fst (b2 evens))
      [fst (b1 evens); fst (b0 evens)] (snd (b2 evens))).
    + discriminate.
    + exact memo_reached.
    + exact memo_orderly.
    + vm_compute. reflexivity.
    + vm_compute. reflexivity.
    + do 3 (apply ran_built; [vm_compute; reflexivity|]). apply ran_none.
    + exact (proj1 U).
    + exact (Forall2_tl _ _ _ _ _ _ _ F).
Qed.
