(** * The memoised [memo_from] over the store: answers (C102). *)

From Verif Require Import Base Spec SpecRaz StackModel AStackModel LevelTreeModel TreeCursorModel RazMetaModel RazModel RazView StoreModel
  StoreSpec StoreScripts StoreNs StoreMapModel StoreMapSpec IncModel IncFromModel IncFromSpec IncFromProofs PropStore PropNs PropStoreMap
  PropMemo PropInc PropIncMap.

(** ** C102: whatever ran before, the tree made reads as the one made from immutable values *)
Theorem C102_at_tail : forall (E M : Type) (RM : RazMeta E M) (eqE : forall x y : E, {x = y} + {x <> y})
    (eqD : forall x y : tree_data E M, {x = y} + {x <> y}) (Nsp : here) (a : astack E level) (t : raz_tree E M),
  from_at_tail a = Ok t -> NoDup (stack_names a) ->
  exists k0, forall k hist tab st s, k0 <= k -> cran (v_from_at_tail eqE eqD) hist tab -> stack_reads st s a ->
  exists h st' tr tab' lg, v_from_at_tail eqE eqD k s st tab = Ok (h, st', tr, tab', lg) /\ tree_reads st' h t /\
    (forall b, fst b <> path \/ ~ In (snd b) (stack_names a) -> st' b = st b) /\
    (stack_reads (without path st) s a -> stack_reads st' s a).
Proof. intros E M RM eqE eqD Nsp a t H Nd. exact (next_from_tail eqE eqD a t H Nd). Qed.
Print Assumptions C102_at_tail.

Theorem C102_at_head : forall (E M : Type) (RM : RazMeta E M) (eqE : forall x y : E, {x = y} + {x <> y})
    (eqD : forall x y : tree_data E M, {x = y} + {x <> y}) (Nsp : here) (a : astack E level) (t : raz_tree E M),
  from_at_head a = Ok t -> NoDup (stack_names a) ->
  exists k0, forall k hist tab st s, k0 <= k -> cran (v_from_at_head eqE eqD) hist tab -> stack_reads st s a ->
  exists h st' tr tab' lg, v_from_at_head eqE eqD k s st tab = Ok (h, st', tr, tab', lg) /\ tree_reads st' h t /\
    (forall b, fst b <> path \/ ~ In (snd b) (stack_names a) -> st' b = st b) /\
    (stack_reads (without path st) s a -> stack_reads st' s a).
Proof. intros E M RM eqE eqD Nsp a t H Nd. exact (next_from_head eqE eqD a t H Nd). Qed.
Print Assumptions C102_at_head.

(** ** Examples *)
Notation cstore := (store (level * list nat) (tree_data nat count)).
Notation cstack := (sastack nat level).
Notation fevent := (cevent (level * list nat) (tree_data nat count) (@vkey nat count) cstack (sraz_tree nat count)).
Notation ftable := (ctab (level * list nat) (tree_data nat count) (@vkey nat count) (@s_from_result nat count)).
Notation fconv := (nat -> cstack -> vm (level * list nat) (tree_data nat count) (@vkey nat count) (@s_from_result nat count) (sraz_tree nat count)).
Definition TREES := [NStr "trees"].
Definition tails : fconv := v_from_at_tail (Nsp := TREES) Nat.eq_dec eqC.
Definition heads : fconv := v_from_at_head (Nsp := TREES) Nat.eq_dec eqC.
Definition convert (run : fconv) (x : cstore * cstack) (tab : ftable) : fevent * ftable :=
  match run 20 (snd x) (fst x) tab with
  | Ok (y, st', _, tab', lg) => (CEvent (fst x) (snd x) y st' lg, tab')
  | _ => (CEvent (fst x) (snd x) gone (fst x) [], tab)
  end.
Lemma cran_again : forall (run : fconv) x h tab, (match run 20 (snd x) (fst x) tab with Ok _ => true | _ => false end) = true ->
  cran run h tab -> cran run (fst (convert run x tab) :: h) (snd (convert run x tab)).
Proof.
  intros run x h tab G H. unfold convert. destruct (run 20 (snd x) (fst x) tab) as [[[[[y st'] tr] tab'] lg]| |] eqn:Q; try discriminate.
  exact (cran_more run h tab 20 (fst x) (snd x) y st' tr tab' lg H Q).
Qed.
Definition after_run {X} (m : sm (level * list nat) (tree_data nat count) X) (x : X) (st : cstore) : cstore * X :=
  match m st with Ok (y, st') => (st', y) | _ => (st, x) end.
(** 1 |5 "a"| 2 3 |3| 4 |7 "b"| 5 of C82, made in the root namespace and converted in [TREES];
    then |4 "c"| 6 on top, converted; converted again. *)
Definition top6 (s : cstack) : sm (level * list nat) (tree_data nat count) cstack :=
  act ' (_, s) <- sa_archive (Nsp := []) s (Some (NStr "c")) 4%N; s_ret (sa_push s 6).
Definition w0 := after_run fill sa_new nix.
Definition w1 run := convert run w0 no_centries.
Definition w2 run := convert run (after_run (top6 (snd w0)) sa_new (c_after (fst (w1 run)))) (snd (w1 run)).
Definition w3 run := convert run (c_after (fst (w2 run)), c_given (fst (w2 run))) (snd (w2 run)).
(** A node of the result overwritten, and a cell of the stack: now 40 where 4 was. *)
Definition w4 run := convert run (write (c_after (fst (w3 run))) (TREES, NStr "a") (CNode (Leaf [99]) None None), c_given (fst (w2 run))) (snd (w3 run)).
Definition w5 run := convert run
  (write (c_after (fst (w4 run))) ([], NStr "b")
    (CBody (7%N, [40]) (Some (HPut (3%N, [2; 3]) (Some (HCell ([], NStr "a")))))), c_given (fst (w2 run))) (snd (w4 run)).
Definition filled6 (x : nat) : astack nat level :=
  AStack [6] (Some (Head (Some (NStr "c")) (4%N, [5]) (Some (Head (Some (NStr "b")) (7%N, [x]) (Some (Head None (3%N, [2; 3])
    (Some (Head (Some (NStr "a")) (5%N, [1]) None)))))))).
Definition numbers_of (e : fevent) : list nat :=
  match srt_tree (c_result e) with
  | Some s => match st_read 20 s (c_after e) with Ok (u, _) => elts (contents (RazTree (Count 0%N) (Some u))) | _ => [] end
  | None => []
  end.
Lemma cran_w5 : forall run, run = tails \/ run = heads ->
  cran run [fst (w5 run); fst (w4 run); fst (w3 run); fst (w2 run); fst (w1 run)] (snd (w5 run)).
Proof.
  intros run Q.
  refine (cran_again run (write (c_after (fst (w4 run))) ([], NStr "b")
    (CBody (7%N, [40]) (Some (HPut (3%N, [2; 3]) (Some (HCell ([], NStr "a")))))), c_given (fst (w2 run))) _ (snd (w4 run)) _ _);
    [destruct Q as [->| ->]; vm_compute; reflexivity|].
  refine (cran_again run (write (c_after (fst (w3 run))) (TREES, NStr "a") (CNode (Leaf [99]) None None), c_given (fst (w2 run))) _ (snd (w3 run)) _ _);
    [destruct Q as [->| ->]; vm_compute; reflexivity|].
  refine (cran_again run (c_after (fst (w2 run)), c_given (fst (w2 run))) _ (snd (w2 run)) _ _); [destruct Q as [->| ->]; vm_compute; reflexivity|].
  refine (cran_again run (after_run (top6 (snd w0)) sa_new (c_after (fst (w1 run)))) _ (snd (w1 run)) _ _); [destruct Q as [->| ->]; vm_compute; reflexivity|].
  refine (cran_again run w0 _ no_centries _ _); [destruct Q as [->| ->]; vm_compute; reflexivity|]. exact (cran_none run).
Qed.
Definition report run : list (list nat * nat) :=
  map (fun e => (numbers_of e, length (c_entered e))) [fst (w1 run); fst (w2 run); fst (w3 run); fst (w4 run); fst (w5 run)].

Example C102_case_at_tail : report tails =
  [([1; 2; 3; 4; 5], 3); ([1; 2; 3; 4; 5; 6], 3); ([1; 2; 3; 4; 5; 6], 0); ([1; 2; 3; 4; 5; 6], 4); ([1; 2; 3; 40; 5; 6], 4)].
Proof. vm_compute. reflexivity. Qed.
Example C102_case_at_head : report heads =
  [([5; 4; 3; 2; 1], 3); ([6; 5; 4; 3; 2; 1], 3); ([6; 5; 4; 3; 2; 1], 0); ([6; 5; 4; 3; 2; 1], 4); ([6; 5; 40; 3; 2; 1], 4)].
Proof. vm_compute. reflexivity. Qed.
(** The fourth and the fifth run meet what the theorems ask for. *)
Example C102_case_hyps : forall x, x = 4 \/ x = 40 -> NoDup (stack_names (filled6 x)) /\
  (exists t : raz_tree nat count, from_at_tail (filled6 x) = Ok t) /\ (exists t : raz_tree nat count, from_at_head (filled6 x) = Ok t).
Proof.
  intros x [->| ->]; (split; [vm_compute; repeat constructor; simpl; intuition discriminate|]);
    (split; eexists; vm_compute; reflexivity).
Qed.
Example C102_case_reads : forall run, run = tails \/ run = heads ->
  cran run [fst (w5 run); fst (w4 run); fst (w3 run); fst (w2 run); fst (w1 run)] (snd (w5 run)) /\
  Forall2 (fun e a => stack_reads (c_before e) (c_given e) a /\ stack_reads (without TREES (c_before e)) (c_given e) a /\ stack_reads (c_after e) (c_given e) a)
    [fst (w5 run); fst (w4 run); fst (w3 run); fst (w2 run); fst (w1 run)]
    [filled6 40; filled6 4; filled6 4; filled6 4; filled].
Proof.
  intros run Q. split; [exact (cran_w5 run Q)|].
  destruct Q as [->| ->]; repeat (apply Forall2_cons; [split; [|split]; (split; [vm_compute; reflexivity|]); exists 10; vm_compute; reflexivity|]); apply Forall2_nil.
Qed.
