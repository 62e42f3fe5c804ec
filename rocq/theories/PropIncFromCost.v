(** * The memoised [memo_from] over the store: reruns and writes (C103). *)

From Verif Require Import Base Spec SpecRaz StackModel AStackModel StackScripts LevelTreeModel TreeCursorModel RazMetaModel RazModel RazView MemoSpec
  MemoFromSpec StoreModel StoreSpec StoreScripts StoreNs StoreMapModel StoreMapSpec IncModel IncSpec IncMapSpec IncFromModel IncFromSpec IncFromCost PropStore PropNs
  PropStoreMap PropMemo PropInc PropIncMap PropIncFrom.

(** ** C103: a rerun enters the calls of the new archive points and of those seen from there,
       and writes nothing else *)
Theorem C103_at_tail : forall (E M : Type) (RM : RazMeta E M) (eqE : forall x y : E, {x = y} + {x <> y})
    (eqD : forall x y : tree_data E M, {x = y} + {x <> y}) (q : list name) (Nsp : here)
    (s s' : astack E level) older l l' ls a b c e hist tab,
  q <> path ->
  Forall2 stack_of (s' :: s :: older) (l' :: l :: ls) -> orderly_points (l' :: l :: ls) ->
  l = a ++ c -> l' = b ++ c ->
  Forall (fun s => exists t : raz_tree E M, from_at_tail s = Ok t) (s' :: s :: older) ->
  cran (v_from_at_tail eqE eqD) (e :: hist) tab -> cundisturbed path (e :: hist) ->
  Forall2 (fun e s => stack_reads (within q (c_before e)) (c_given e) s) (e :: hist) (s' :: s :: older) ->
  length (c_entered e) <= length (marks b) + seen_from_right (rev c) /\
  (l' = l -> c_entered e = []) /\
  forall b, c_after e b = c_before e b \/ fst b = path /\ exists h lev t m, In (h, lev, Some (snd b), t, m) (c_entered e).
Proof. intros E M RM eqE eqD q Nsp. exact (use_tail_again eqE eqD q). Qed.
Print Assumptions C103_at_tail.

Theorem C103_at_head : forall (E M : Type) (RM : RazMeta E M) (eqE : forall x y : E, {x = y} + {x <> y})
    (eqD : forall x y : tree_data E M, {x = y} + {x <> y}) (q : list name) (Nsp : here)
    (s s' : astack E level) older l l' ls a b c e hist tab,
  q <> path ->
  Forall2 stack_of (s' :: s :: older) (l' :: l :: ls) -> orderly_points (l' :: l :: ls) ->
  l = a ++ c -> l' = b ++ c ->
  Forall (fun s => exists t : raz_tree E M, from_at_head s = Ok t) (s' :: s :: older) ->
  cran (v_from_at_head eqE eqD) (e :: hist) tab -> cundisturbed path (e :: hist) ->
  Forall2 (fun e s => stack_reads (within q (c_before e)) (c_given e) s) (e :: hist) (s' :: s :: older) ->
  length (c_entered e) <= length (marks b) + seen_from_left 0%N c /\
  (l' = l -> c_entered e = []) /\
  forall b, c_after e b = c_before e b \/ fst b = path /\ exists h lev t m, In (h, lev, Some (snd b), t, m) (c_entered e).
Proof. intros E M RM eqE eqD q Nsp. exact (use_head_again eqE eqD q). Qed.
Print Assumptions C103_at_head.

(** ** Examples *)
(** 1 |5 "a"| 2 3 |3 "d"| 4 |7 "b"| 5, made in the root namespace and converted in [TREES]; then
    |4 "c"| 6 on top, converted; converted again; then the cell "b" of the stack overwritten: 40
    where 4 was. *)
Definition fill2 : sm (level * list nat) (tree_data nat count) cstack :=
  act ' (_, s) <- sa_archive (Nsp := []) (sa_push sa_new 1) (Some (NStr "a")) 5%N;
  act ' (_, s) <- sa_archive (Nsp := []) (sa_push (sa_push s 2) 3) (Some (NStr "d")) 3%N;
  act ' (_, s) <- sa_archive (Nsp := []) (sa_push s 4) (Some (NStr "b")) 7%N;
  s_ret (sa_push s 5).
Definition u0 := after_run fill2 sa_new nix.
Definition u1 run := convert run u0 no_centries.
Definition u2 run := convert run (after_run (top6 (snd u0)) sa_new (c_after (fst (u1 run)))) (snd (u1 run)).
Definition u3 run := convert run (c_after (fst (u2 run)), c_given (fst (u2 run))) (snd (u2 run)).
Definition u4_store run := write (c_after (fst (u3 run))) ([], NStr "b") (CBody (7%N, [40]) (Some (HCell ([], NStr "d")))).
Definition u4 run := convert run (u4_store run, c_given (fst (u3 run))) (snd (u3 run)).
Definition names_of_calls (e : fevent) : list (option name) := map (fun k => snd (fst (fst k))) (c_entered e).
Example C103_case_tail : map names_of_calls [fst (u1 tails); fst (u2 tails); fst (u3 tails); fst (u4 tails)] =
  [[Some (NStr "b"); Some (NStr "d"); Some (NStr "a")]; [Some (NStr "c"); Some (NStr "b")]; [];
   [Some (NStr "c"); Some (NStr "b"); Some (NStr "d"); Some (NStr "a")]].
Proof. vm_compute. reflexivity. Qed.
Example C103_case_head : map names_of_calls [fst (u1 heads); fst (u2 heads); fst (u3 heads); fst (u4 heads)] =
  [[Some (NStr "b"); Some (NStr "d"); Some (NStr "a")]; [Some (NStr "c"); Some (NStr "b")]; [];
   [Some (NStr "c"); Some (NStr "b"); Some (NStr "d"); Some (NStr "a")]].
Proof. vm_compute. reflexivity. Qed.

(** The stacks, the operations that make them, and what they hold. *)
Definition stack7 : astack nat level :=
  AStack [5] (Some (Head (Some (NStr "b")) (7%N, [4]) (Some (Head (Some (NStr "d")) (3%N, [2; 3]) (Some (Head (Some (NStr "a")) (5%N, [1]) None)))))).
Definition stack8 (x : nat) : astack nat level :=
  AStack [6] (Some (Head (Some (NStr "c")) (4%N, [5]) (Some (Head (Some (NStr "b")) (7%N, [x]) (Some (Head (Some (NStr "d")) (3%N, [2; 3])
    (Some (Head (Some (NStr "a")) (5%N, [1]) None)))))))).
Definition bottom : list (atom nat level) := [Mark 3%N (Some (NStr "d")); Elt 3; Elt 2; Mark 5%N (Some (NStr "a")); Elt 1].
Definition middle (x : nat) : list (atom nat level) := [Elt 5; Mark 7%N (Some (NStr "b")); Elt x].
Definition over : list (atom nat level) := [Elt 6; Mark 4%N (Some (NStr "c"))].
Definition ops7 (x : nat) : list (aop nat level) :=
  [OpPush 1; OpArchive (Some (NStr "a")) 5%N; OpPush 2; OpPush 3; OpArchive (Some (NStr "d")) 3%N; OpPush x; OpArchive (Some (NStr "b")) 7%N; OpPush 5].
Example C103_case_stacks : Forall2 stack_of [stack8 40; stack8 4; stack8 4; stack7]
  [over ++ middle 40 ++ bottom; over ++ middle 4 ++ bottom; over ++ middle 4 ++ bottom; middle 4 ++ bottom].
Proof.
  repeat constructor.
  - exists (ops7 40 ++ [OpArchive (Some (NStr "c")) 4%N; OpPush 6]). eexists. split; vm_compute; reflexivity.
  - exists (ops7 4 ++ [OpArchive (Some (NStr "c")) 4%N; OpPush 6]). eexists. split; vm_compute; reflexivity.
  - exists (ops7 4 ++ [OpArchive (Some (NStr "c")) 4%N; OpPush 6]). eexists. split; vm_compute; reflexivity.
  - exists (ops7 4). eexists. split; vm_compute; reflexivity.
Qed.
Example C103_case_orderly : orderly_points
  [over ++ middle 40 ++ bottom; over ++ middle 4 ++ bottom; over ++ middle 4 ++ bottom; middle 4 ++ bottom].
Proof.
  cbn [orderly_points].
  repeat match goal with |- _ /\ _ => split end; try exact I.
  all: try (intros p Hp; vm_compute in Hp; repeat (destruct Hp as [<-|Hp]; [discriminate|]); contradiction).
  all: try (vm_compute; repeat (apply NoDup_cons; [intros H; cbn [In] in H; repeat (destruct H as [H|H]; [discriminate|]); contradiction|]); apply NoDup_nil).
  all: intros n H; try exact I; vm_compute in H;
    repeat (destruct H as [H|H]; [injection H as <-; try (left; vm_compute; tauto)|]); try contradiction.
  right. intros u [<-|[]] Q. vm_compute in Q. repeat (destruct Q as [Q|Q]; [discriminate|]). contradiction.
Qed.
Example C103_case_makes : Forall (fun s => exists t : raz_tree nat count, from_at_tail s = Ok t) [stack8 40; stack8 4; stack8 4; stack7] /\
  Forall (fun s => exists t : raz_tree nat count, from_at_head s = Ok t) [stack8 40; stack8 4; stack8 4; stack7].
Proof. split; repeat (constructor; [eexists; vm_compute; reflexivity|]); constructor. Qed.
Lemma convert_before : forall run x tab, c_before (fst (convert run x tab)) = fst x.
Proof. intros run x tab. unfold convert. now destruct (run 20 (snd x) (fst x) tab) as [[[[[y st'] tr] tab'] lg]| |]. Qed.
Lemma top6_elsewhere : forall s st n, fst (after_run (top6 s) sa_new st) (TREES, n) = st (TREES, n).
Proof.
  intros s st n. unfold after_run, top6, sa_archive, s_bind, s_ret. destruct (sa_current s); [reflexivity|].
  reflexivity.
Qed.
Example C103_case_ran : forall run, run = tails \/ run = heads ->
  cran run [fst (u4 run); fst (u3 run); fst (u2 run); fst (u1 run)] (snd (u4 run)) /\
  cundisturbed TREES [fst (u4 run); fst (u3 run); fst (u2 run); fst (u1 run)] /\
  Forall2 (fun e s => stack_reads (within [] (c_before e)) (c_given e) s) [fst (u4 run); fst (u3 run); fst (u2 run); fst (u1 run)]
    [stack8 40; stack8 4; stack8 4; stack7].
Proof.
  intros run Q. split; [|split].
  - refine (cran_again run (u4_store run, c_given (fst (u3 run))) _ (snd (u3 run)) _ _); [destruct Q as [->| ->]; vm_compute; reflexivity|].
    refine (cran_again run (c_after (fst (u2 run)), c_given (fst (u2 run))) _ (snd (u2 run)) _ _); [destruct Q as [->| ->]; vm_compute; reflexivity|].
    refine (cran_again run (after_run (top6 (snd u0)) sa_new (c_after (fst (u1 run)))) _ (snd (u1 run)) _ _); [destruct Q as [->| ->]; vm_compute; reflexivity|].
    refine (cran_again run u0 _ no_centries _ _); [destruct Q as [->| ->]; vm_compute; reflexivity|]. exact (cran_none run).
  - cbn [cundisturbed].
    assert (B2 : c_before (fst (u2 run)) = fst (after_run (top6 (snd u0)) sa_new (c_after (fst (u1 run)))))
      by exact (convert_before run (after_run (top6 (snd u0)) sa_new (c_after (fst (u1 run)))) (snd (u1 run))).
    assert (B3 : c_before (fst (u3 run)) = c_after (fst (u2 run))) by exact (convert_before run (c_after (fst (u2 run)), c_given (fst (u2 run))) (snd (u2 run))).
    assert (B4 : c_before (fst (u4 run)) = u4_store run) by exact (convert_before run (u4_store run, c_given (fst (u3 run))) (snd (u3 run))).
    split; [split; [split; [split; exact I|]|]|]; intros n.
    + rewrite B2. exact (top6_elsewhere _ _ n).
    + now rewrite B3.
    + rewrite B4. reflexivity.
  - destruct Q as [->| ->]; repeat (apply Forall2_cons; [(split; [vm_compute; reflexivity|]); exists 10; vm_compute; reflexivity|]); apply Forall2_nil.
Qed.
(** The bounds for the second and the fourth run; they are met. *)
Example C103_case_bounds : forall run, run = tails \/ run = heads ->
  map (fun e : fevent => length (c_entered e)) [fst (u2 run); fst (u4 run)] = [2; 4] /\
  length (marks over) + seen_from_right (rev (middle 4 ++ bottom)) = 2 /\ length (marks over) + seen_from_left 0%N (middle 4 ++ bottom) = 2 /\
  length (marks (over ++ middle 40)) + seen_from_right (rev bottom) = 4 /\ length (marks (over ++ middle 40)) + seen_from_left 0%N bottom = 4.
Proof. intros run [->| ->]; repeat split; vm_compute; reflexivity. Qed.
(** The theorem says so of the fourth run, and what it may have written. *)
Example C103_case : length (c_entered (fst (u4 tails))) <= 4 /\
  forall b, c_after (fst (u4 tails)) b = c_before (fst (u4 tails)) b \/ In b [(TREES, NStr "c"); (TREES, NStr "b"); (TREES, NStr "d"); (TREES, NStr "a")].
Proof.
  destruct (C103_case_ran tails (or_introl eq_refl)) as (R & U & F).
  destruct (C103_at_tail nat count (count_meta nat) Nat.eq_dec eqC [] TREES (stack8 4) (stack8 40) [stack8 4; stack7]
    (over ++ middle 4 ++ bottom) (over ++ middle 40 ++ bottom) [over ++ middle 4 ++ bottom; middle 4 ++ bottom]
    (over ++ middle 4) (over ++ middle 40) bottom (fst (u4 tails)) [fst (u3 tails); fst (u2 tails); fst (u1 tails)] (snd (u4 tails))
    ltac:(discriminate) C103_case_stacks C103_case_orderly eq_refl eq_refl (proj1 C103_case_makes) R U F) as (L & _ & W).
  split; [exact L|]. intros b. destruct (W b) as [H|(P & h & lev & t & m & H)]; [now left|right]. destruct b as [p z]. cbn [fst snd] in *. subst p.
  apply (in_map (fun k => snd (fst (fst k)))) in H. cbn [fst snd] in H.
  assert (N : names_of_calls (fst (u4 tails)) = [Some (NStr "c"); Some (NStr "b"); Some (NStr "d"); Some (NStr "a")]) by (vm_compute; reflexivity).
  unfold names_of_calls in N. rewrite N in H. cbn [In] in H.
  repeat (destruct H as [H|H]; [injection H as <-; cbn [In]; tauto|]). contradiction.
Qed.
(** Refuted without the condition that nobody else writes there: the rerun of the same stack
    after a node of the result was overwritten ([w4] of C102) enters calls. *)
Example C103_disturbed : cran tails [fst (w4 tails); fst (w3 tails); fst (w2 tails); fst (w1 tails)] (snd (w4 tails)) /\
  length (c_entered (fst (w3 tails))) = 0 /\ length (c_entered (fst (w4 tails))) = 4.
Proof.
  split; [|split; vm_compute; reflexivity].
  refine (cran_again tails (write (c_after (fst (w3 tails))) (TREES, NStr "a") (CNode (Leaf [99]) None None), c_given (fst (w2 tails))) _ (snd (w3 tails)) _ _);
    [vm_compute; reflexivity|].
  refine (cran_again tails (c_after (fst (w2 tails)), c_given (fst (w2 tails))) _ (snd (w2 tails)) _ _); [vm_compute; reflexivity|].
  refine (cran_again tails (after_run (top6 (snd w0)) sa_new (c_after (fst (w1 tails)))) _ (snd (w1 tails)) _ _); [vm_compute; reflexivity|].
  refine (cran_again tails w0 _ no_centries _ _); [vm_compute; reflexivity|]. exact (cran_none tails).
Qed.
