(** * The memoised tree_to_list over the store: answers, and the work of a rerun. *)

From Verif Require Import Base Spec SpecRaz LevelTreeModel TreeCursorModel RazMetaModel RazModel RazView RazScripts MemoModel MemoSpec StackModel AStackModel
  AccumModel AccumScripts AccumProofs ExampleModel ExampleProofs StoreModel StoreSpec StoreScripts IncModel IncSpec ListIncModel ListIncSpec ListIncProofs ListIncCost
  PropMemo PropInc PropIncMap.

(** ** C113: whatever ran before, what tree_to_list leaves in the store reads as the list
    made without memos, which answers as the stack of the elements; it writes only cells
    named in the tree *)
Theorem C113_list : forall (E M : Type) (RM : RazMeta E M) (eqD : forall x y : tree_data E M, {x = y} + {x <> y}) (eqE : forall x y : E, {x = y} + {x <> y})
    (Nsp : here) free (t : raz_tree E M),
  tree_reached free t -> NoDup (node_names t) ->
  exists l, l = to_list (list_iface E) t /\ answers_as (list_iface E) (fun _ => True) l (rev (elts (contents t))) /\
  exists k0, forall k hist tab st cs h, k0 <= k -> w_ran (to_list_inc eqD eqE) hist tab -> tree_reads st h t ->
  exists y cs' tr tab' lg, to_list_inc eqD eqE k h st cs tab = Ok (y, cs', tr, tab', lg) /\ list_reads cs' y l /\
    forall b, fst b <> path \/ ~ In (snd b) (node_names t) -> cs' b = cs b.
Proof.
  intros E M RM eqD eqE Nsp free t Re Nd. eexists. split; [reflexivity|]. split; [|exact (next_to_list eqD eqE free t Re Nd)].
  exact (to_list_reached free _ _ t Re (list_lifo E) (fun _ _ => I)).
Qed.
Print Assumptions C113_list.

Theorem C113_vec_list : forall (E M : Type) (RM : RazMeta E M) (eqD : forall x y : tree_data E M, {x = y} + {x <> y}) (eqE : forall x y : E, {x = y} + {x <> y})
    (Nsp : here) free (t : raz_tree E M),
  tree_reached free t -> NoDup (node_names t) ->
  exists l, l = to_list (vl_iface E) t /\ answers_as (vl_iface E) (fun _ => True) l (rev (elts (contents t))) /\
  exists k0, forall k hist tab st cs h, k0 <= k -> w_ran (to_vlist_inc eqD eqE) hist tab -> tree_reads st h t ->
  exists y cs' tr tab' lg, to_vlist_inc eqD eqE k h st cs tab = Ok (y, cs', tr, tab', lg) /\ vlist_reads cs' y l /\
    forall b, fst b <> path \/ ~ In (snd b) (node_names t) -> cs' b = cs b.
Proof.
  intros E M RM eqD eqE Nsp free t Re Nd. eexists. split; [reflexivity|]. split; [|exact (next_to_vlist eqD eqE free t Re Nd)].
  exact (to_list_reached free _ _ t Re (vl_lifo E) (fun _ _ => I)).
Qed.
Print Assumptions C113_vec_list.

(** Into archive stacks that keep the levels, and that drop them. *)
Theorem C113_stack : forall (E M : Type) (RM : RazMeta E M) (eqD : forall x y : tree_data E M, {x = y} + {x <> y}) (eqE : forall x y : E, {x = y} + {x <> y})
    (Nsp : here) free (t : raz_tree E M),
  tree_reached free t -> NoDup (node_names t) ->
  exists l, l = to_list (astack_iface E) t /\ answers_as (astack_iface E) (fun _ => True) l (rev (elts (contents t))) /\
  exists k0, forall k hist tab st cs h, k0 <= k -> w_ran (to_stack_inc eqD eqE N.eq_dec (fun l => l)) hist tab -> tree_reads st h t ->
  exists y cs' tr tab' lg, to_stack_inc eqD eqE N.eq_dec (fun l => l) k h st cs tab = Ok (y, cs', tr, tab', lg) /\ astack_reads cs' y l /\
    forall b, fst b <> path \/ ~ In (snd b) (node_names t) -> cs' b = cs b.
Proof.
  intros E M RM eqD eqE Nsp free t Re Nd. eexists. split; [reflexivity|]. split; [|exact (next_to_stack eqD eqE N.eq_dec (fun l => l) free t Re Nd)].
  exact (to_list_reached free _ _ t Re (as_lifo E) (fun _ _ => I)).
Qed.
Print Assumptions C113_stack.

Theorem C113_plain_stack : forall (E M : Type) (RM : RazMeta E M) (eqD : forall x y : tree_data E M, {x = y} + {x <> y}) (eqE : forall x y : E, {x = y} + {x <> y})
    (eqU : forall x y : unit, {x = y} + {x <> y}) (Nsp : here) free (t : raz_tree E M),
  tree_reached free t -> NoDup (node_names t) ->
  exists l, l = to_list (astack_unit_iface E) t /\ answers_as (astack_unit_iface E) (fun _ => True) l (rev (elts (contents t))) /\
  exists k0, forall k hist tab st cs h, k0 <= k -> w_ran (to_stack_inc eqD eqE eqU (fun _ => tt)) hist tab -> tree_reads st h t ->
  exists y cs' tr tab' lg, to_stack_inc eqD eqE eqU (fun _ => tt) k h st cs tab = Ok (y, cs', tr, tab', lg) /\ astack_reads cs' y l /\
    forall b, fst b <> path \/ ~ In (snd b) (node_names t) -> cs' b = cs b.
Proof.
  intros E M RM eqD eqE eqU Nsp free t Re Nd. eexists. split; [reflexivity|]. split; [|exact (next_to_stack eqD eqE eqU (fun _ => tt) free t Re Nd)].
  exact (to_list_reached free _ _ t Re (as_unit_lifo E) (fun _ _ => I)).
Qed.
Print Assumptions C113_plain_stack.

(** ** C114: how much of it runs again, and which cells it writes *)
Theorem C114_rerun_list : forall (E M : Type) (RM : RazMeta E M) (eqD : forall x y : tree_data E M, {x = y} + {x <> y}) (eqE : forall x y : E, {x = y} + {x <> y})
    (q : list name) (Nsp : here) (t t' : raz_tree E M) older pre mid mid' post e hist tab,
  Forall (fun t => tree_reached false t) (t' :: t :: older) ->
  orderly_points (map contents (t' :: t :: older)) ->
  contents t = pre ++ mid ++ post -> contents t' = pre ++ mid' ++ post ->
  w_ran (to_list_inc eqD eqE) (e :: hist) tab -> w_undisturbed path (e :: hist) ->
  Forall2 (fun e t => tree_reads (within q (w_trees e)) (w_given e) t) (e :: hist) (t' :: t :: older) ->
  length (w_entered e) <= 1 + 2 * (seen_from_right pre + length (marks mid') + seen_from_left 0%N post) /\
  forall b, w_after e b = w_before e b \/ fst b = path /\ exists h, In h (w_entered e) /\ st_name h = Some (snd b).
Proof.
  intros E M RM eqD eqE q Nsp t t' older pre mid mid' post e hist tab Re Op C C' R U F.
  exact (again_to_list eqD eqE q t t' older pre mid mid' post Re Op C C' e hist tab R U F).
Qed.
Print Assumptions C114_rerun_list.

Theorem C114_rerun_vec_list : forall (E M : Type) (RM : RazMeta E M) (eqD : forall x y : tree_data E M, {x = y} + {x <> y}) (eqE : forall x y : E, {x = y} + {x <> y})
    (q : list name) (Nsp : here) (t t' : raz_tree E M) older pre mid mid' post e hist tab,
  Forall (fun t => tree_reached false t) (t' :: t :: older) ->
  orderly_points (map contents (t' :: t :: older)) ->
  contents t = pre ++ mid ++ post -> contents t' = pre ++ mid' ++ post ->
  w_ran (to_vlist_inc eqD eqE) (e :: hist) tab -> w_undisturbed path (e :: hist) ->
  Forall2 (fun e t => tree_reads (within q (w_trees e)) (w_given e) t) (e :: hist) (t' :: t :: older) ->
  length (w_entered e) <= 1 + 2 * (seen_from_right pre + length (marks mid') + seen_from_left 0%N post) /\
  forall b, w_after e b = w_before e b \/ fst b = path /\ exists h, In h (w_entered e) /\ st_name h = Some (snd b).
Proof.
  intros E M RM eqD eqE q Nsp t t' older pre mid mid' post e hist tab Re Op C C' R U F.
  exact (again_to_vlist eqD eqE q t t' older pre mid mid' post Re Op C C' e hist tab R U F).
Qed.
Print Assumptions C114_rerun_vec_list.

Theorem C114_rerun_stack : forall (E M S : Type) (RM : RazMeta E M) (eqD : forall x y : tree_data E M, {x = y} + {x <> y}) (eqE : forall x y : E, {x = y} + {x <> y})
    (eqS : forall x y : S, {x = y} + {x <> y}) (meta : level -> S)
    (q : list name) (Nsp : here) (t t' : raz_tree E M) older pre mid mid' post e hist tab,
  Forall (fun t => tree_reached false t) (t' :: t :: older) ->
  orderly_points (map contents (t' :: t :: older)) ->
  contents t = pre ++ mid ++ post -> contents t' = pre ++ mid' ++ post ->
  w_ran (to_stack_inc eqD eqE eqS meta) (e :: hist) tab -> w_undisturbed path (e :: hist) ->
  Forall2 (fun e t => tree_reads (within q (w_trees e)) (w_given e) t) (e :: hist) (t' :: t :: older) ->
  length (w_entered e) <= 1 + 2 * (seen_from_right pre + length (marks mid') + seen_from_left 0%N post) /\
  forall b, w_after e b = w_before e b \/ fst b = path /\ exists h, In h (w_entered e) /\ st_name h = Some (snd b).
Proof.
  intros E M S RM eqD eqE eqS meta q Nsp t t' older pre mid mid' post e hist tab Re Op C C' R U F.
  exact (again_to_stack eqD eqE q t t' older pre mid mid' post Re Op C C' eqS meta e hist tab R U F).
Qed.
Print Assumptions C114_rerun_stack.

(** ** Examples *)
Definition LISTS := [NStr "lists"].
Notation ltree := (sraz_tree nat count).
Notation lister C R := (nat -> ltree -> wm (level * list nat) (tree_data nat count) C (stree (tree_data nat count) * option name * R) R R).
Notation levent C R := (wevent (level * list nat) (tree_data nat count) C ltree R).
Notation ltable C R := (wtab (tree_data nat count) C (stree (tree_data nat count) * option name * R) R).
Definition lists : lister (slist nat) (slist nat) := to_list_inc (Nsp := LISTS) eqC Nat.eq_dec.
Definition vlists : lister (svlist nat) (svlist nat) := to_vlist_inc (Nsp := LISTS) eqC Nat.eq_dec.
Definition stacks : lister (body (level * list nat)) (sastack nat level) := to_stack_inc (Nsp := LISTS) eqC Nat.eq_dec N.eq_dec (fun l => l).
Definition listed {C R} (run : lister C R) (x : mstate) (cs : wcells C) (tab : ltable C R) (other : R) : levent C R * ltable C R :=
  match run 80 (snd x) (fst x) cs tab with
  | Ok (y, cs', _, tab', lg) => (WEvent (fst x) cs (snd x) y cs' lg, tab')
  | _ => (WEvent (fst x) cs (snd x) other cs [], tab)
  end.
(** The tree of C80; 8 is inserted; 9 is inserted; nothing is changed. *)
Definition l0 {C R} (run : lister C R) other := listed run x0 (fun _ => None) no_wentries other.
Definition l1 {C R} (run : lister C R) other := listed run x1 (w_after (fst (l0 run other))) (snd (l0 run other)) other.
Definition l2 {C R} (run : lister C R) other := listed run x2 (w_after (fst (l1 run other))) (snd (l1 run other)) other.
Definition l3 {C R} (run : lister C R) other := listed run x2 (w_after (fst (l2 run other))) (snd (l2 run other)) other.
Definition past {C R} (run : lister C R) other := [fst (l3 run other); fst (l2 run other); fst (l1 run other); fst (l0 run other)].
Lemma ran_listed : forall C R (run : lister C R) x cs h tab other, (match run 80 (snd x) (fst x) cs tab with Ok _ => true | _ => false end) = true ->
  w_ran run h tab -> w_ran run (fst (listed run x cs tab other) :: h) (snd (listed run x cs tab other)).
Proof.
  intros C R run x cs h tab other G H. unfold listed. destruct (run 80 (snd x) (fst x) cs tab) as [[[[[y cs'] tr] tab'] lg]| |] eqn:Q; try discriminate.
  exact (w_ran_more run h tab 80 (fst x) cs (snd x) y cs' tr tab' lg H Q).
Qed.
Lemma listed_was : forall C R (run : lister C R) x cs tab other, w_before (fst (listed run x cs tab other)) = cs /\
  w_trees (fst (listed run x cs tab other)) = fst x /\ w_given (fst (listed run x cs tab other)) = snd x.
Proof. intros C R run x cs tab other. unfold listed. now destruct (run 80 (snd x) (fst x) cs tab) as [[[[[y cs'] tr] tab'] lg]| |]. Qed.
Lemma listed_undisturbed : forall C R (run : lister C R) other p, w_undisturbed p (past run other).
Proof.
  assert (B : forall C R (run : lister C R) x cs tab other, w_before (fst (listed run x cs tab other)) = cs)
    by (intros C R run x cs tab other; exact (proj1 (listed_was C R run x cs tab other))).
  intros C R run other p. unfold past. cbn [w_undisturbed].
  assert (B1 : w_before (fst (l1 run other)) = w_after (fst (l0 run other))) by apply B.
  assert (B2 : w_before (fst (l2 run other)) = w_after (fst (l1 run other))) by apply B.
  assert (B3 : w_before (fst (l3 run other)) = w_after (fst (l2 run other))) by apply B.
  rewrite B1, B2, B3. auto.
Qed.
Lemma Forall2_both : forall A B (P : A -> B -> Prop) a l b l', Forall2 P (a :: l) (b :: l') -> P a b /\ Forall2 P l l'.
Proof. intros A B P a l b l' H. inversion H. auto. Qed.
Lemma listed_reads : forall C R (run : lister C R) other,
  Forall2 (fun e t => tree_reads (within HOME (w_trees e)) (w_given e) t) (past run other) [memo_t2; memo_t2; memo_t1; memo_t0].
Proof.
  intros C R run other. destruct C80_case_reads as (_ & _ & F).
  apply Forall2_both in F. destruct F as [F0 F]. apply Forall2_both in F. destruct F as [F1 F]. apply Forall2_both in F. destruct F as [F2 _].
  assert (G : forall x cs tab (t : raz_tree nat count), tree_reads (within HOME (fst x)) (snd x) t ->
    tree_reads (within HOME (w_trees (fst (listed run x cs tab other)))) (w_given (fst (listed run x cs tab other))) t).
  { intros x cs tab t H. destruct (listed_was _ _ run x cs tab other) as (_ & -> & ->). exact H. }
  unfold past, l3, l2, l1, l0. repeat (apply Forall2_cons; [apply G; assumption|]). apply Forall2_nil.
Qed.
Example C114_case_ran : w_ran lists (past lists SLNil) (snd (l3 lists SLNil)) /\ w_ran vlists (past vlists SVNil) (snd (l3 vlists SVNil)) /\
  w_ran stacks (past stacks sa_new) (snd (l3 stacks sa_new)).
Proof. repeat split; (do 4 (apply ran_listed; [vm_compute; reflexivity|]); apply w_ran_none). Qed.
Example C114_case : map (fun e => length (w_entered e)) (past lists SLNil) = [1; 6; 4; 13] /\
  map (fun e => length (w_entered e)) (past vlists SVNil) = [1; 6; 4; 13] /\
  map (fun e => length (w_entered e)) (past stacks sa_new) = [1; 6; 4; 13].
Proof. repeat split; vm_compute; reflexivity. Qed.
(** The bound, for the third run: 9 after a new point, between the 8 and the point 5:5. *)
Example C114_case_bound : exists pre mid mid' post, contents memo_t1 = pre ++ mid ++ post /\ contents memo_t2 = pre ++ mid' ++ post /\
  length (w_entered (fst (l2 lists SLNil))) <= 1 + 2 * (seen_from_right pre + length (marks mid') + seen_from_left 0%N post) /\
  length (w_entered (fst (l2 vlists SVNil))) <= 1 + 2 * (seen_from_right pre + length (marks mid') + seen_from_left 0%N post) /\
  length (w_entered (fst (l2 stacks sa_new))) <= 1 + 2 * (seen_from_right pre + length (marks mid') + seen_from_left 0%N post) /\
  1 + 2 * (seen_from_right pre + length (marks mid') + seen_from_left 0%N post) = 9.
Proof.
  exists (firstn 10 (contents memo_t1)), [], (firstn 2 (skipn 10 (contents memo_t2))), (skipn 10 (contents memo_t1)).
  split; [vm_compute; reflexivity|]. split; [vm_compute; reflexivity|]. split; [|split; [|split; [|vm_compute; reflexivity]]].
  - apply (C114_rerun_list nat count (count_meta nat) eqC Nat.eq_dec HOME LISTS memo_t1 memo_t2 [memo_t0] _ [] _ _ (fst (l2 lists SLNil))
      [fst (l1 lists SLNil); fst (l0 lists SLNil)] (snd (l2 lists SLNil)) memo_reached memo_orderly).
    + vm_compute. reflexivity.
    + vm_compute. reflexivity.
    + do 3 (apply ran_listed; [vm_compute; reflexivity|]). apply w_ran_none.
    + exact (proj1 (listed_undisturbed _ _ lists SLNil LISTS)).
    + exact (Forall2_tl _ _ _ _ _ _ _ (listed_reads _ _ lists SLNil)).
  - apply (C114_rerun_vec_list nat count (count_meta nat) eqC Nat.eq_dec HOME LISTS memo_t1 memo_t2 [memo_t0] _ [] _ _ (fst (l2 vlists SVNil))
      [fst (l1 vlists SVNil); fst (l0 vlists SVNil)] (snd (l2 vlists SVNil)) memo_reached memo_orderly).
    + vm_compute. reflexivity.
    + vm_compute. reflexivity.
    + do 3 (apply ran_listed; [vm_compute; reflexivity|]). apply w_ran_none.
    + exact (proj1 (listed_undisturbed _ _ vlists SVNil LISTS)).
    + exact (Forall2_tl _ _ _ _ _ _ _ (listed_reads _ _ vlists SVNil)).
  - apply (C114_rerun_stack nat count level (count_meta nat) eqC Nat.eq_dec N.eq_dec (fun l => l) HOME LISTS memo_t1 memo_t2 [memo_t0] _ [] _ _ (fst (l2 stacks sa_new))
      [fst (l1 stacks sa_new); fst (l0 stacks sa_new)] (snd (l2 stacks sa_new)) memo_reached memo_orderly).
    + vm_compute. reflexivity.
    + vm_compute. reflexivity.
    + do 3 (apply ran_listed; [vm_compute; reflexivity|]). apply w_ran_none.
    + exact (proj1 (listed_undisturbed _ _ stacks sa_new LISTS)).
    + exact (Forall2_tl _ _ _ _ _ _ _ (listed_reads _ _ stacks sa_new)).
Qed.

(** Reading accumulators out of their cells. *)
Fixpoint get_list (k : nat) (cs : wcells (slist nat)) (h : slist nat) : option (acc_list nat) :=
  match k with
  | 0 => None
  | S k =>
      match h with
      | SLNil => Some LNil
      | SLCons x h => option_map (LCons x) (get_list k cs h)
      | SLName n h => option_map (LName n) (get_list k cs h)
      | SLArt a => match cs a with Some h => option_map LArt (get_list k cs h) | None => None end
      end
  end.
Lemma list_by : forall k cs h l, get_list k cs h = Some l -> list_reads cs h l.
Proof.
  induction k as [|k IH]; intros cs h l H; [discriminate|]. cbn [get_list] in H. destruct h as [|x h|n h|a].
  - injection H as <-. constructor.
  - destruct (get_list k cs h) eqn:Q; [|discriminate]. injection H as <-. constructor. auto.
  - destruct (get_list k cs h) eqn:Q; [|discriminate]. injection H as <-. constructor. auto.
  - destruct (cs a) as [h|] eqn:Qa; [|discriminate]. destruct (get_list k cs h) eqn:Q; [|discriminate]. injection H as <-.
    econstructor; eauto.
Qed.
Lemma list_one : forall (cs : wcells (slist nat)) h l l', list_reads cs h l -> list_reads cs h l' -> l = l'.
Proof.
  intros cs h l l' H. revert l'. induction H as [|x h l H IH|n h l H IH|a h l Q H IH]; intros l' H'; inversion H'; subst; f_equal; auto.
  apply IH. congruence.
Qed.
Lemma other_list : forall k (cs : wcells (slist nat)) h l l', get_list k cs h = Some l' -> l' <> l -> ~ list_reads cs h l.
Proof. intros k cs h l l' Q D H. apply D. exact (list_one cs h l' l (list_by k cs h l' Q) H). Qed.
Example C113_case : NoDup (node_names memo_t2) /\
  list_reads (w_after (fst (l3 lists SLNil))) (w_result (fst (l3 lists SLNil))) (to_list (list_iface nat) memo_t2) /\
  elts (contents memo_t2) = [1; 2; 3; 4; 5; 8; 9; 6; 7] /\
  match irun (list_iface nat) (to_list (list_iface nat) memo_t2) [IPop; IPop; IPop; IPush 3; IPop; IPop] with Ok (os, _) => os | _ => [] end =
    [Some (Some 7); Some (Some 6); Some (Some 9); None; Some (Some 3); Some (Some 8)].
Proof.
  split; [vm_compute; repeat (constructor; [simpl; intuition discriminate|]); constructor|].
  split; [apply (list_by 80); vm_compute; reflexivity|]. split; vm_compute; reflexivity.
Qed.
(** A cell of the list overwritten by another: the next run makes it again. *)
Definition smudged : wcells (slist nat) := w_write (w_after (fst (l3 lists SLNil))) (LISTS, NPair (nm_k 3) (NStr "tree")) (SLCons 99 SLNil).
Definition l4 := listed lists x2 smudged (snd (l3 lists SLNil)) SLNil.
Example C113_case_overwritten : w_ran lists (fst l4 :: past lists SLNil) (snd l4) /\
  list_reads (w_after (fst l4)) (w_result (fst l4)) (to_list (list_iface nat) memo_t2) /\
  ~ list_reads smudged (w_result (fst (l3 lists SLNil))) (to_list (list_iface nat) memo_t2).
Proof.
  split; [apply ran_listed; [vm_compute; reflexivity|exact (proj1 C114_case_ran)]|].
  split; [apply (list_by 80); vm_compute; reflexivity|]. eapply (other_list 80); [vm_compute; reflexivity|vm_compute; discriminate].
Qed.
(** The answer of an earlier run does not outlive the next run: the cells are used again. *)
Theorem C113_kept_refuted : exists (e' e : levent (slist nat) (slist nat)) hist tab l, w_ran lists (e' :: e :: hist) tab /\ w_undisturbed LISTS (e' :: e :: hist) /\
  list_reads (w_after e) (w_result e) l /\ ~ list_reads (w_after e') (w_result e) l.
Proof.
  exists (fst (l1 lists SLNil)), (fst (l0 lists SLNil)), [], (snd (l1 lists SLNil)), (to_list (list_iface nat) memo_t0).
  split; [do 2 (apply ran_listed; [vm_compute; reflexivity|]); apply w_ran_none|].
  split; [exact (proj1 (proj1 (listed_undisturbed _ _ lists SLNil LISTS)))|].
  split; [apply (list_by 80); vm_compute; reflexivity|]. eapply (other_list 80); [vm_compute; reflexivity|vm_compute; discriminate].
Qed.
Print Assumptions C113_kept_refuted.
