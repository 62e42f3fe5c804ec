(** * Stacks converted and computed on, all memoised over the store (C104). *)

From Verif Require Import Base Spec SpecRaz StackModel AStackModel StackScripts LevelTreeModel TreeSpec TreeCursorModel RazMetaModel RazModel RazView RazScripts MemoModel MemoSpec
  MemoFromSpec StoreModel StoreSpec StoreScripts StoreNs StoreMapModel StoreMapSpec IncModel IncSpec IncMapModel IncMapSpec IncFromModel IncFromSpec IncPipe PropStore PropNs
  PropStoreMap PropMemo PropInc PropIncMap PropIncFrom PropIncFromCost IncMapSpec.

(** ** C104: after each conversion (in [path], from stacks in [q]) the tree is folded (with
       memo entries in [p]): the answers are those of the stacks, and the last conversion and
       fold together enter at most 1 + 3k calls, with k counting the archive points of the
       changed part and those of the rest that are seen from there *)
Theorem C104_tail_fold_up : forall (E M : Type) (RM : RazMeta E M) (eqE : forall x y : E, {x = y} + {x <> y})
    (eqD : forall x y : tree_data E M, {x = y} + {x <> y}) (q p : list name) (Nsp : here)
    (s s' : astack E level) older l l' ls a b c e hist tab (R : Type) (init : list E -> res R) (bin : R -> level -> option name -> R -> res R),
  q <> path -> Forall2 (ready 1%N u32_max) (s' :: s :: older) (l' :: l :: ls) -> orderly_points (l' :: l :: ls) ->
  l = a ++ c -> l' = b ++ c ->
  cran (v_from_at_tail eqE eqD) (e :: hist) tab -> cundisturbed path (e :: hist) ->
  Forall2 (fun e s => stack_reads (within q (c_before e)) (c_given e) s) (e :: hist) (s' :: s :: older) ->
  let trees := rev (map (fun e => (c_after e, c_result e)) (e :: hist)) in
  exists k0, forall k, k0 <= k ->
    answer (inc_runs (i_rt_fold_up_gauged (Nsp := p) eqD k init bin) trees no_entries) =
      all_ok (map (fun s => do t <- from_at_tail s; rt_fold_up_gauged t init bin) (rev (s' :: s :: older))) /\
    forall rs tab lgs, inc_runs (i_rt_fold_up_gauged (Nsp := p) eqD k init bin) trees no_entries = Ok (rs, tab, lgs) ->
      length (c_entered e) + length (last lgs []) <= 1 + 3 * (length (marks b) + seen_from_right (rev c)).
Proof.
  intros E M RM eqE eqD q p Nsp s s' older l l' ls a b c e hist tab R init bin D Re Or A B Rn Un Rd.
  exact (tail_up eqE eqD q s s' older l l' ls a b c e hist tab D Or A B Un Rd p init bin Re Rn).
Qed.
Print Assumptions C104_tail_fold_up.

Theorem C104_head_fold_up : forall (E M : Type) (RM : RazMeta E M) (eqE : forall x y : E, {x = y} + {x <> y})
    (eqD : forall x y : tree_data E M, {x = y} + {x <> y}) (q p : list name) (Nsp : here)
    (s s' : astack E level) older l l' ls a b c e hist tab (R : Type) (init : list E -> res R) (bin : R -> level -> option name -> R -> res R),
  q <> path -> Forall2 (ready 1%N (u32_max + 1)%N) (s' :: s :: older) (l' :: l :: ls) -> orderly_points (l' :: l :: ls) ->
  l = a ++ c -> l' = b ++ c ->
  cran (v_from_at_head eqE eqD) (e :: hist) tab -> cundisturbed path (e :: hist) ->
  Forall2 (fun e s => stack_reads (within q (c_before e)) (c_given e) s) (e :: hist) (s' :: s :: older) ->
  let trees := rev (map (fun e => (c_after e, c_result e)) (e :: hist)) in
  exists k0, forall k, k0 <= k ->
    answer (inc_runs (i_rt_fold_up_gauged (Nsp := p) eqD k init bin) trees no_entries) =
      all_ok (map (fun s => do t <- from_at_head s; rt_fold_up_gauged t init bin) (rev (s' :: s :: older))) /\
    forall rs tab lgs, inc_runs (i_rt_fold_up_gauged (Nsp := p) eqD k init bin) trees no_entries = Ok (rs, tab, lgs) ->
      length (c_entered e) + length (last lgs []) <= 1 + 3 * (length (marks b) + seen_from_left 0%N c).
Proof.
  intros E M RM eqE eqD q p Nsp s s' older l l' ls a b c e hist tab R init bin D Re Or A B Rn Un Rd.
  exact (head_up eqE eqD q s s' older l l' ls a b c e hist tab D Or A B Un Rd p init bin Re Rn).
Qed.
Print Assumptions C104_head_fold_up.

(** The part on top is the end of the tree made at the tail: a computation from left to right
    is as cheap. *)
Theorem C104_tail_fold_lr : forall (E M : Type) (RM : RazMeta E M) (eqE : forall x y : E, {x = y} + {x <> y})
    (eqD : forall x y : tree_data E M, {x = y} + {x <> y}) (q p : list name) (Nsp : here)
    (s s' : astack E level) older l l' ls a b c e hist tab (R : Type) (eqR : forall x y : R, {x = y} + {x <> y}) (init : R)
    (bin : R -> E -> R) (meta : R -> level * option name -> R),
  q <> path -> Forall2 (ready 1%N u32_max) (s' :: s :: older) (l' :: l :: ls) -> orderly_points (l' :: l :: ls) ->
  l = a ++ c -> l' = b ++ c ->
  cran (v_from_at_tail eqE eqD) (e :: hist) tab -> cundisturbed path (e :: hist) ->
  Forall2 (fun e s => stack_reads (within q (c_before e)) (c_given e) s) (e :: hist) (s' :: s :: older) ->
  let trees := rev (map (fun e => (c_after e, c_result e)) (e :: hist)) in
  exists k0, forall k, k0 <= k ->
    answer (inc_runs (i_rt_fold_lr_meta (Nsp := p) eqD eqR k bin meta init) trees no_entries) =
      all_ok (map (fun s => do t <- from_at_tail s; Ok (rt_fold_lr_meta t init bin meta)) (rev (s' :: s :: older))) /\
    forall rs tab lgs, inc_runs (i_rt_fold_lr_meta (Nsp := p) eqD eqR k bin meta init) trees no_entries = Ok (rs, tab, lgs) ->
      length (c_entered e) + length (last lgs []) <= 1 + 3 * (length (marks b) + seen_from_right (rev c)).
Proof.
  intros E M RM eqE eqD q p Nsp s s' older l l' ls a b c e hist tab R eqR init bin meta D Re Or A B Rn Un Rd.
  exact (tail_lr eqE eqD q s s' older l l' ls a b c e hist tab D Or A B Un Rd p eqR init bin meta Re Rn).
Qed.
Print Assumptions C104_tail_fold_lr.

(** The same with a map, whose results are made in [p]. *)
Theorem C104_tail_map : forall (E M : Type) (RM : RazMeta E M) (eqE : forall x y : E, {x = y} + {x <> y})
    (eqD : forall x y : tree_data E M, {x = y} + {x <> y}) (q p : list name) (Nsp : here)
    (s s' : astack E level) older l l' ls a b c e hist tab (f : E -> E) d ds tab2,
  q <> path -> Forall2 (ready 1%N u32_max) (s' :: s :: older) (l' :: l :: ls) -> orderly_points (l' :: l :: ls) ->
  l = a ++ c -> l' = b ++ c ->
  cran (v_from_at_tail eqE eqD) (e :: hist) tab -> cundisturbed path (e :: hist) ->
  Forall2 (fun e s => stack_reads (within q (c_before e)) (c_given e) s) (e :: hist) (s' :: s :: older) ->
  p <> path -> ran (fun k => u_rt_map (Nsp := p) eqD k f) (d :: ds) tab2 -> undisturbed p (d :: ds) ->
  Forall2 (fun d e => before d = c_after e /\ given d = c_result e) (d :: ds) (e :: hist) ->
  length (c_entered e) + length (entered d) <= 1 + 3 * (length (marks b) + seen_from_right (rev c)).
Proof.
  intros E M RM eqE eqD q p Nsp s s' older l l' ls a b c e hist tab f d ds tab2 D Re Or A B Rn Un Rd.
  exact (tail_map eqE eqD q s s' older l l' ls a b c e hist tab D Or A B Un Rd p f d ds tab2 Re Rn).
Qed.
Print Assumptions C104_tail_map.

Theorem C104_head_map : forall (E M : Type) (RM : RazMeta E M) (eqE : forall x y : E, {x = y} + {x <> y})
    (eqD : forall x y : tree_data E M, {x = y} + {x <> y}) (q p : list name) (Nsp : here)
    (s s' : astack E level) older l l' ls a b c e hist tab (f : E -> E) d ds tab2,
  q <> path -> Forall2 (ready 1%N (u32_max + 1)%N) (s' :: s :: older) (l' :: l :: ls) -> orderly_points (l' :: l :: ls) ->
  l = a ++ c -> l' = b ++ c ->
  cran (v_from_at_head eqE eqD) (e :: hist) tab -> cundisturbed path (e :: hist) ->
  Forall2 (fun e s => stack_reads (within q (c_before e)) (c_given e) s) (e :: hist) (s' :: s :: older) ->
  p <> path -> ran (fun k => u_rt_map (Nsp := p) eqD k f) (d :: ds) tab2 -> undisturbed p (d :: ds) ->
  Forall2 (fun d e => before d = c_after e /\ given d = c_result e) (d :: ds) (e :: hist) ->
  length (c_entered e) + length (entered d) <= 1 + 3 * (length (marks b) + seen_from_left 0%N c).
Proof.
  intros E M RM eqE eqD q p Nsp s s' older l l' ls a b c e hist tab f d ds tab2 D Re Or A B Rn Un Rd.
  exact (head_map eqE eqD q s s' older l l' ls a b c e hist tab D Or A B Un Rd p f d ds tab2 Re Rn).
Qed.
Print Assumptions C104_head_map.

(** ** Examples *)
(** The history of C103, each tree summed: runs from the oldest, with answers and the numbers
    of calls entered. *)
Lemma ready_ops : forall x (top : list (aop nat level)) s l, (top = [] \/ top = [OpArchive (Some (NStr "c")) 4%N; OpPush 6]) ->
  (exists obs, as_run as_new (ops7 x ++ top) = Ok (obs, s)) -> snd (sp_run [] (ops7 x ++ top)) = l -> current s <> [] -> ready 1%N u32_max s l.
Proof.
  intros x top s l T R L C. exists (ops7 x ++ top). split; [|exact L]. split; [exact R|]. split.
  - apply Forall_app. split; [|destruct T as [->| ->]]; unfold ops7; repeat (apply Forall_cons; [lazymatch goal with |- True => exact I | |- _ => idtac end|]);
      try apply Forall_nil; unfold u32_max; lia.
  - intros _ Q. apply C. apply length_zero_iff_nil. exact Q.
Qed.
Lemma ready_cases : Forall2 (ready 1%N u32_max) [stack8 40; stack8 4; stack8 4; stack7]
  [over ++ middle 40 ++ bottom; over ++ middle 4 ++ bottom; over ++ middle 4 ++ bottom; middle 4 ++ bottom].
Proof.
  apply Forall2_cons; [|apply Forall2_cons; [|apply Forall2_cons; [|apply Forall2_cons; [|apply Forall2_nil]]]].
  - apply (ready_ops 40 _ _ _ (or_intror eq_refl)); [eexists; vm_compute; reflexivity|vm_compute; reflexivity|discriminate].
  - apply (ready_ops 4 _ _ _ (or_intror eq_refl)); [eexists; vm_compute; reflexivity|vm_compute; reflexivity|discriminate].
  - apply (ready_ops 4 _ _ _ (or_intror eq_refl)); [eexists; vm_compute; reflexivity|vm_compute; reflexivity|discriminate].
  - apply (ready_ops 4 _ _ _ (or_introl eq_refl)); [eexists; vm_compute; reflexivity|vm_compute; reflexivity|discriminate].
Qed.
Definition SUMS := [NStr "sums"].
Definition trees4 run := rev (map (fun e : fevent => (c_after e, c_result e)) [fst (u4 run); fst (u3 run); fst (u2 run); fst (u1 run)]).
Definition summing (k : nat) := i_rt_fold_up_gauged (E := nat) (M := count) (Nsp := SUMS) eqC k (fun v => Ok (list_sum v)) (fun x _ _ y => Ok (x + y)).
Definition counted {X Y Z} (r : res (X * Y * list (list Z))) : option (X * list nat) :=
  match r with Ok (x, _, lgs) => Some (x, map (@length _) lgs) | _ => None end.
Definition seconds (k : nat) := i_rt_fold_lr_meta (E := nat) (M := count) (Nsp := SUMS) eqC Nat.eq_dec k (fun a x => a * 2 + x) (fun a _ => a) 0.
Example C104_case_sums : map (fun run => counted (inc_runs (summing 20) (trees4 run) no_entries)) [tails; heads] =
  [Some ([Some 15; Some 21; Some 21; Some 57], [7; 4; 1; 4]); Some ([Some 15; Some 21; Some 21; Some 57], [7; 4; 1; 4])].
Proof. vm_compute. reflexivity. Qed.
(** From left to right after the conversion at the head more is done than before: the new part
    is in front. *)
Example C104_case_lr : map (fun run => counted (inc_runs (seconds 20) (trees4 run) no_entries)) [tails; heads] =
  [Some ([57; 120; 120; 264], [7; 4; 1; 7]); Some ([129; 321; 321; 609], [7; 9; 1; 6])].
Proof. vm_compute. reflexivity. Qed.
Example C104_case : exists k0, forall k rs tab lgs, k0 <= k -> inc_runs (summing k) (trees4 tails) no_entries = Ok (rs, tab, lgs) ->
  rs = [Some 15; Some 21; Some 21; Some 57] /\ length (c_entered (fst (u4 tails))) + length (last lgs []) <= 13.
Proof.
  destruct (C103_case_ran tails (or_introl eq_refl)) as (R & U & F).
  destruct (C104_tail_fold_up nat count (count_meta nat) Nat.eq_dec eqC [] SUMS TREES (stack8 4) (stack8 40) [stack8 4; stack7]
    (over ++ middle 4 ++ bottom) (over ++ middle 40 ++ bottom) [over ++ middle 4 ++ bottom; middle 4 ++ bottom]
    (over ++ middle 4) (over ++ middle 40) bottom (fst (u4 tails)) [fst (u3 tails); fst (u2 tails); fst (u1 tails)] (snd (u4 tails))
    nat (fun v => Ok (list_sum v)) (fun x _ _ y => Ok (x + y))
    ltac:(discriminate) ready_cases C103_case_orderly eq_refl eq_refl R U F) as (k0 & K).
  exists k0. intros k rs tab lgs Hk H. destruct (K k Hk) as [A B]. split; [|exact (B rs tab lgs H)].
  change (answer (inc_runs (summing k) (trees4 tails) no_entries) = Ok [Some 15; Some 21; Some 21; Some 57]) in A.
  rewrite H in A. now injection A.
Qed.
(** With a map after each conversion. *)
Definition e1 := convert tails u0 no_centries.
Definition d1 := again (c_after (fst e1), c_result (fst e1)) no_entries.
Definition e2 := convert tails (after_run (top6 (snd u0)) sa_new (after (fst d1))) (snd e1).
Definition d2 := again (c_after (fst e2), c_result (fst e2)) (snd d1).
Definition mapped (d : mevent) : list nat :=
  match found (after d) (result d) with Some u => elts (contents (RazTree (Count 0%N) (Some u))) | None => [] end.
Example C104_case_mapped : map (fun d => (mapped d, length (entered d))) [fst d1; fst d2] = [([2; 3; 4; 5; 6], 7); ([2; 3; 4; 5; 6; 7], 4)] /\
  map (fun e : fevent => length (c_entered e)) [fst e1; fst e2] = [3; 2].
Proof. split; vm_compute; reflexivity. Qed.
Lemma d1_elsewhere : forall n, after (fst d1) (TREES, n) = c_after (fst e1) (TREES, n).
Proof. intros n. vm_compute. reflexivity. Qed.
Lemma e2_elsewhere : forall n, c_after (fst e2) (MAPS, n) = after (fst d1) (MAPS, n).
Proof. intros n. vm_compute. reflexivity. Qed.
Example C104_case_map : length (c_entered (fst e2)) + length (entered (fst d2)) <= 7.
Proof.
  assert (B2 : c_before (fst e2) = fst (after_run (top6 (snd u0)) sa_new (after (fst d1)))) by exact (convert_before tails _ (snd e1)).
  assert (D2 : before (fst d2) = c_after (fst e2)) by exact (again_before (c_after (fst e2), c_result (fst e2)) (snd d1)).
  assert (D1 : before (fst d1) = c_after (fst e1)) by exact (again_before (c_after (fst e1), c_result (fst e1)) no_entries).
  refine (C104_tail_map nat count (count_meta nat) Nat.eq_dec eqC [] MAPS TREES stack7 (stack8 4) [] (middle 4 ++ bottom) (over ++ middle 4 ++ bottom) []
    [] over (middle 4 ++ bottom) (fst e2) [fst e1] (snd e2) S (fst d2) [fst d1] (snd d2) ltac:(discriminate) _ _ eq_refl eq_refl _ _ _ ltac:(discriminate) _ _ _).
  - assert (X : forall (A B : Type) (P : A -> B -> Prop) x y l l', Forall2 P (x :: l) (y :: l') -> Forall2 P l l')
      by (intros A B P x y l l' H; now inversion H).
    exact (X _ _ _ _ _ _ _ (X _ _ _ _ _ _ _ ready_cases)).
  - exact (proj1 (proj1 C103_case_orderly)).
  - refine (cran_again tails (after_run (top6 (snd u0)) sa_new (after (fst d1))) _ (snd e1) _ _); [vm_compute; reflexivity|].
    refine (cran_again tails u0 _ no_centries _ _); [vm_compute; reflexivity|]. exact (cran_none tails).
  - cbn [cundisturbed]. split; [split; exact I|]. intros n. rewrite B2, top6_elsewhere. exact (d1_elsewhere n).
  - repeat (apply Forall2_cons; [(split; [vm_compute; reflexivity|]); exists 10; vm_compute; reflexivity|]); apply Forall2_nil.
  - refine (ran_again (c_after (fst e2), c_result (fst e2)) _ (snd d1) _ _); [vm_compute; reflexivity|].
    refine (ran_again (c_after (fst e1), c_result (fst e1)) _ no_entries _ _); [vm_compute; reflexivity|]. exact (ran_none succs).
  - cbn [undisturbed]. split; [split; exact I|]. intros n. rewrite D2. exact (e2_elsewhere n).
  - apply Forall2_cons; [split; [exact D2|]|apply Forall2_cons; [split; [exact D1|]|apply Forall2_nil]]; vm_compute; reflexivity.
Qed.
