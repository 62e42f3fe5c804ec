(** * Properties of the memoised computations over the mutable store (C79, C80). *)

From Verif Require Import Base Spec SpecRaz LevelTreeModel TreeSpec TreeCursorModel RazMetaModel RazModel RazView RazScripts
  RazReach MemoModel MemoSpec MemoProofs MemoHistory StoreModel StoreSpec StoreScripts StoreProofs StoreHistory IncModel IncSpec IncProofs IncCost StoreLive PropMemo.

(** C79. Run after run, each on some handle in some store, the computation answers what
    the plain one does on the tree that the handle reads as at that moment, ... *)
Theorem C79_tree_fold_up_meta : forall (T A R : Type) (eqA : forall x y : A, {x = y} + {x <> y}) (Nsp : here)
    (f : option R -> A -> level -> option name -> option R -> res R) (xs : list (store T A * stree A)) ts,
  Forall2 (fun c t => reads (fst c) (snd c) t) xs ts ->
  exists k0, forall k, k0 <= k ->
    answer (inc_runs (i_fold_up_meta eqA k f) xs no_entries) = all_ok (map (t_fold_up_meta f) ts).
Proof. intros T A R eqA Nsp f xs ts. apply up_runs. Qed.
Print Assumptions C79_tree_fold_up_meta.

Theorem C79_tree_fold_lr_meta : forall (T A R : Type) (eqA : forall x y : A, {x = y} + {x <> y})
    (eqR : forall x y : R, {x = y} + {x <> y}) (Nsp : here) (f : R -> A -> level -> option name -> R)
    (xs : list (store T A * (stree A * option name * R))) ts,
  Forall2 (fun c t => reads (fst c) (fst (fst (snd c))) (fst (fst t)) /\
    snd (fst (snd c)) = snd (fst t) /\ snd (snd c) = snd t) xs ts ->
  exists k0, forall k, k0 <= k ->
    answer (inc_runs (fun c => i_fold_lr_meta eqA eqR k f (fst (fst c)) (snd (fst c)) (snd c)) xs no_entries) =
    Ok (map (fun c => t_fold_lr_meta f (fst (fst c)) (snd (fst c)) (snd c)) ts).
Proof. intros T A R eqA eqR Nsp f xs ts. apply lr_runs. Qed.
Print Assumptions C79_tree_fold_lr_meta.

Section Raz.
Context (E M : Type) (RM : RazMeta E M) (eqD : forall x y : tree_data E M, {x = y} + {x <> y}) (Nsp : here) (R : Type)
  (xs : list (store (level * list E) (tree_data E M) * sraz_tree E M)) (ts : list (raz_tree E M)).
Hypothesis reading : Forall2 (fun c t => tree_reads (fst c) (snd c) t) xs ts.

Theorem C79_fold_up : forall (init : E -> R) (bin : R -> R -> R),
  exists k0, forall k, k0 <= k ->
    answer (inc_runs (i_rt_fold_up eqD k init bin) xs no_entries) = all_ok (map (fun t => rt_fold_up t init bin) ts).
Proof. intros init bin. exact (rt_runs eqD _ _ _ (rt_up_tracks eqD (up_node init bin)) Nsp xs ts reading). Qed.

Theorem C79_fold_up_nl : forall (init : E -> R) (bin : R -> R -> R) (binnl : R -> level -> option name -> R -> R),
  exists k0, forall k, k0 <= k ->
    answer (inc_runs (i_rt_fold_up_nl eqD k init bin binnl) xs no_entries) =
    all_ok (map (fun t => rt_fold_up_nl t init bin binnl) ts).
Proof. intros init bin binnl. exact (rt_runs eqD _ _ _ (rt_up_tracks eqD (up_nl_node init bin binnl)) Nsp xs ts reading). Qed.

Theorem C79_fold_up_gauged : forall (init : list E -> res R) (bin : R -> level -> option name -> R -> res R),
  exists k0, forall k, k0 <= k ->
    answer (inc_runs (i_rt_fold_up_gauged eqD k init bin) xs no_entries) =
    all_ok (map (fun t => rt_fold_up_gauged t init bin) ts).
Proof. intros init bin. exact (rt_runs eqD _ _ _ (rt_up_tracks eqD (up_gauged_node init bin)) Nsp xs ts reading). Qed.

Theorem C79_fold_lr_meta : forall (eqR : forall x y : R, {x = y} + {x <> y}) (init : R) (bin : R -> E -> R)
    (meta : R -> level * option name -> R),
  exists k0, forall k, k0 <= k ->
    answer (inc_runs (i_rt_fold_lr_meta eqD eqR k bin meta init) xs no_entries) =
    Ok (map (fun t => rt_fold_lr_meta t init bin meta) ts).
Proof.
  intros eqR init bin meta. rewrite <- all_ok_Ok.
  exact (rt_runs eqD _ _ _ (rt_lr_tracks eqD eqR (lr_node bin meta) init) Nsp xs ts reading).
Qed.

Theorem C79_fold_lr : forall (eqR : forall x y : R, {x = y} + {x <> y}) (init : R) (bin : R -> E -> R),
  exists k0, forall k, k0 <= k ->
    answer (inc_runs (i_rt_fold_lr eqD eqR k bin init) xs no_entries) = Ok (map (fun t => rt_fold_lr t init bin) ts).
Proof. intros eqR init bin. exact (C79_fold_lr_meta eqR init bin (fun a _ => a)). Qed.

Theorem C79_fold_lr_archive : forall (eqR : forall x y : R, {x = y} + {x <> y}) (init : R) (bin : R -> E -> R)
    (finbin : R -> option name -> R) (meta : R -> level -> R),
  exists k0, forall k, k0 <= k ->
    answer (inc_runs (i_rt_fold_lr_archive eqD eqR k bin finbin meta init) xs no_entries) =
    Ok (map (fun t => rt_fold_lr_archive t init bin finbin meta) ts).
Proof.
  intros eqR init bin finbin meta. rewrite <- all_ok_Ok.
  exact (rt_runs eqD _ _ _ (rt_lr_tracks eqD eqR (lr_archive_node bin finbin meta) init) Nsp xs ts reading).
Qed.
End Raz.
Print Assumptions C79_fold_up.
Print Assumptions C79_fold_up_nl.
Print Assumptions C79_fold_up_gauged.
Print Assumptions C79_fold_lr_meta.
Print Assumptions C79_fold_lr.
Print Assumptions C79_fold_lr_archive.

(** ... so programs that edit in one namespace [q] (bringing only names not in use,
    cloning only values without names) and compute in any namespace in between answer over
    every store as the immutable code without memo table does. *)
Theorem C79_program_fold_up : forall (E M : Type) (RM : RazMeta E M) (eqD : forall x y : tree_data E M, {x = y} + {x <> y})
    (q fns : here) (R : Type) (init : E -> R) (bin : R -> R -> R) (cs : list (icmd (cmd E Index))) os p',
  pi_run (fun t => rt_fold_up t init bin) [] cs = Ok (os, p') -> names_ok_run [] (edits cs) ->
  exists k0, forall k st, k0 <= k -> exists sp' st' tab',
    si_run (Nsp := q) (i_rt_fold_up (Nsp := fns) eqD k init bin) k [] cs st no_entries = Ok (os, sp', st', tab').
Proof.
  intros E M RM eqD q fns R init bin cs os p' H N.
  destruct (pi_run_sim eqD _ _ _ (rt_up_tracks (Fns := fns) eqD (up_node init bin)) q cs [] os p' H N) as [k0 K].
  exists k0. intros k st Hk. destruct (K k Hk st [] no_entries) as (sp' & st' & tab' & X & _).
  - constructor.
  - intros n. apply Nat.le_0_l.
  - apply no_entries_sound.
  - eauto.
Qed.
Print Assumptions C79_program_fold_up.

Theorem C79_program_fold_lr_meta : forall (E M : Type) (RM : RazMeta E M) (eqD : forall x y : tree_data E M, {x = y} + {x <> y})
    (q fns : here) (R : Type) (eqR : forall x y : R, {x = y} + {x <> y}) (init : R) (bin : R -> E -> R)
    (meta : R -> level * option name -> R) (cs : list (icmd (cmd E Index))) os p',
  pi_run (fun t => Ok (rt_fold_lr_meta t init bin meta)) [] cs = Ok (os, p') -> names_ok_run [] (edits cs) ->
  exists k0, forall k st, k0 <= k -> exists sp' st' tab',
    si_run (Nsp := q) (i_rt_fold_lr_meta (Nsp := fns) eqD eqR k bin meta init) k [] cs st no_entries = Ok (os, sp', st', tab').
Proof.
  intros E M RM eqD q fns R eqR init bin meta cs os p' H N.
  destruct (pi_run_sim eqD _ _ _ (rt_lr_tracks (Fns := fns) eqD eqR (lr_node bin meta) init) q cs [] os p' H N) as [k0 K].
  exists k0. intros k st Hk. destruct (K k Hk st [] no_entries) as (sp' & st' & tab' & X & _).
  - constructor.
  - intros n. apply Nat.le_0_l.
  - apply no_entries_sound.
  - eauto.
Qed.
Print Assumptions C79_program_fold_lr_meta.

(** C80. When all cells of the trees are in one namespace [q], the last of the runs
    enters no more nodes than over immutable trees (C70, C71): the bounds hold although
    the cells themselves have been overwritten in between. *)
Theorem C80_rerun_fold_up : forall (E M : Type) (RM : RazMeta E M)
    (eqD : forall x y : tree_data E M, {x = y} + {x <> y}) (q : list name) (Nsp : here)
    (R : Type) (f : option R -> tree_data E M -> level -> option name -> option R -> res R)
    (t t' : raz_tree E M) older pre mid mid' post (xs : list (store (level * list E) (tree_data E M) * sraz_tree E M)),
  Forall (fun t => tree_reached false t) (t' :: t :: older) ->
  orderly_points (map contents (t' :: t :: older)) ->
  contents t = pre ++ mid ++ post -> contents t' = pre ++ mid' ++ post ->
  Forall2 (fun c t => tree_reads (within q (fst c)) (snd c) t) xs (rev (t' :: t :: older)) ->
  exists k0, forall k rs tab lgs, k0 <= k ->
    inc_runs (i_on_tree (i_fold_up_meta eqD k f)) xs no_entries = Ok (rs, tab, lgs) ->
    length (last lgs []) <= 1 + 2 * (seen_from_right pre + length (marks mid') + seen_from_left 0%N post).
Proof.
  intros E M RM eqD q Nsp R f t t' older pre mid mid' post xs A B C D F.
  destruct (rt_last_run q _ _ _ _ (rt_up_sim eqD q f) (1 + 2 * (seen_from_right pre + length (marks mid') + seen_from_left 0%N post))
    xs (rev (t :: older)) t' F) as [k0 K]; [|exists k0; eauto].
  intros. eapply up_cost; eassumption.
Qed.
Print Assumptions C80_rerun_fold_up.

Theorem C80_rerun_unchanged : forall (E M : Type) (RM : RazMeta E M)
    (eqD : forall x y : tree_data E M, {x = y} + {x <> y}) (q : list name) (Nsp : here)
    (R : Type) (f : option R -> tree_data E M -> level -> option name -> option R -> res R)
    (t t' : raz_tree E M) older (xs : list (store (level * list E) (tree_data E M) * sraz_tree E M)),
  Forall (fun t => tree_reached false t) (t' :: t :: older) ->
  orderly_points (map contents (t' :: t :: older)) -> contents t' = contents t ->
  Forall2 (fun c t => tree_reads (within q (fst c)) (snd c) t) xs (rev (t' :: t :: older)) ->
  exists k0, forall k rs tab lgs, k0 <= k ->
    inc_runs (i_on_tree (i_fold_up_meta eqD k f)) xs no_entries = Ok (rs, tab, lgs) -> length (last lgs []) <= 1.
Proof.
  intros E M RM eqD q Nsp R f t t' older xs A B C F.
  destruct (rt_last_run q _ _ _ _ (rt_up_sim eqD q f) 1 xs (rev (t :: older)) t' F) as [k0 K]; [|exists k0; eauto].
  intros rs tab lgs x tab' lg H1 H2. exact (up_again eqD t t' older A B C f _ _ _ _ _ _ H1 H2).
Qed.
Print Assumptions C80_rerun_unchanged.

Theorem C80_rerun_fold_lr_meta : forall (E M : Type) (RM : RazMeta E M)
    (eqD : forall x y : tree_data E M, {x = y} + {x <> y}) (q : list name) (Nsp : here)
    (R : Type) (eqR : forall x y : R, {x = y} + {x <> y}) (init : R) (bin : R -> E -> R)
    (meta : R -> level * option name -> R)
    (t t' : raz_tree E M) older pre mid mid' post (xs : list (store (level * list E) (tree_data E M) * sraz_tree E M)),
  Forall (fun t => tree_reached false t) (t' :: t :: older) ->
  orderly_points (map contents (t' :: t :: older)) ->
  contents t = pre ++ mid ++ post -> contents t' = pre ++ mid' ++ post ->
  Forall2 (fun c t => tree_reads (within q (fst c)) (snd c) t) xs (rev (t' :: t :: older)) ->
  exists k0, forall k rs tab lgs, k0 <= k ->
    inc_runs (i_rt_fold_lr_meta eqD eqR k bin meta init) xs no_entries = Ok (rs, tab, lgs) ->
    length (last lgs []) <= 1 + 2 * (seen_from_right pre + length (marks mid') + length (marks post)).
Proof.
  intros E M RM eqD q Nsp R eqR init bin meta t t' older pre mid mid' post xs A B C D F.
  destruct (rt_last_run q _ _ _ _ (rt_lr_sim eqD q eqR (lr_node bin meta) init)
    (1 + 2 * (seen_from_right pre + length (marks mid') + length (marks post))) xs (rev (t :: older)) t' F) as [k0 K]; [|exists k0; eauto].
  intros rs tab lgs x tab' lg H1 H2.
  refine (lr_cost eqD t t' older pre mid mid' post A B C D eqR _ (fun a lv nm => meta a (lv, nm)) init _ _ _ _ _ _ _ H1 H2).
  reflexivity.
Qed.
Print Assumptions C80_rerun_fold_lr_meta.

(** Programs that work in [q] only, from trees in [q] (or from none), leave their trees
    there. *)
Theorem C80_programs_stay_home : forall (E M : Type) (RM : RazMeta E M) (q : list name) (cs : list (cmd E Index)) ts os p',
  p_run (map VTree ts) cs = Ok (os, p') -> names_ok_run (map VTree ts) cs -> NoDup (flat_map node_names ts) ->
  exists k0, forall k st hs, k0 <= k -> Forall2 (tree_reads (within q st)) hs ts ->
  exists sp' st', s_run (Nsp := q) k (map VTree hs) cs st = Ok ((os, sp'), st') /\ Forall2 (shows (within q st')) sp' p'.
Proof. intros E M RM q cs ts os p'. apply home. Qed.
Print Assumptions C80_programs_stay_home.

(** ** Examples *)
Notation ixc := (@Index nat count _).
Definition nix {T A} : store T A := fun _ => None.
Definition HOME := [NStr "home"].
Definition FOLD := [NStr "fold"].

(** The tree of C70 (1 |1:3| 2 |2:1| 3 |3:4| 4 |4:2| 5 |5:5| 6 |6:1| 7), made in [HOME]; it is
    computed on, 8 is inserted after the 5, it is computed on, 9 is inserted there after
    an archive point, it is computed on twice, the 1 and the 2 are removed. *)
Definition making : list (cmd nat ixc) := CRaz :: map (CStep 0) (memo_ops []) ++ [CUnfocus 0].
Definition with8 (i n : nat) : list (cmd nat ixc) := [CFocus i 5%N; CStep n (OPushL 8%nat); CUnfocus n].
Definition with9 (i n : nat) : list (cmd nat ixc) :=
  [CFocus i 6%N; CStep n (OArchL 1%N (Some (nm_k 7))); CStep n (OPushL 9%nat); CUnfocus n].
Definition edit_and_fold : list (icmd (cmd nat ixc)) :=
  map IDo making ++ [IFold 1] ++ map IDo (with8 1 2) ++ [IFold 3] ++ map IDo (with9 3 4) ++ [IFold 5; IFold 5] ++
  map IDo [CFocus 5 2%N; CStep 6 OPopL; CStep 6 OPopL; CUnfocus 6] ++ [IFold 7].
Definition folded {X Y} (os : list (iout X Y)) : list Y :=
  flat_map (fun o => match o with IFolded y => [y] | _ => [] end) os.
Definition sums := i_rt_fold_up (Nsp := FOLD) eqC 80 (fun e : nat => e) Nat.add.
Example C79_case : names_ok_run [] (edits edit_and_fold) /\
  exists os p1, pi_run (fun t => rt_fold_up t (fun e => e) Nat.add) [] edit_and_fold = Ok (os, p1) /\
    match si_run (Nsp := HOME) sums 80 [] edit_and_fold nix no_entries with Ok (os', _, _, _) => os' = os | _ => False end /\
    folded os = [Some 28; Some 36; Some 45; Some 45; Some 42].
Proof.
  split.
  - eapply distinct_names_ok; [vm_compute; reflexivity| |reflexivity].
    vm_compute. repeat (constructor; [simpl; intuition discriminate|]). constructor.
  - do 2 eexists. split; [vm_compute; reflexivity|]. split; vm_compute; reflexivity.
Qed.

(** The stores after the making, the 8 and the 9, with the handles of the tree. *)
Notation mstate := (store (level * list nat) (tree_data nat count) * sraz_tree nat count)%type.
Definition go (cs : list (cmd nat ixc)) (hs : list (sraz_tree nat count)) st : mstate :=
  match s_run (Nsp := HOME) 80 (map VTree hs) cs st with
  | Ok ((_, sp), st') => (st', match last sp VGone with VTree h => h | _ => (SRazTree (Count 0%N) None) end)
  | _ => (st, (SRazTree (Count 0%N) None))
  end.
Definition x0 : mstate := go making [] nix.
Definition x1 : mstate := go (with8 0 1) [snd x0] (fst x0).
Definition x2 : mstate := go (with9 0 1) [snd x1] (fst x1).
Lemma read_gives : forall (st : store (level * list nat) (tree_data nat count)) h t k,
  match st_read k h st with Ok (t', _) => Some t' | _ => None end = Some t -> reads st h t.
Proof.
  intros st h t k H. destruct (st_read k h st) as [[t' st']| |] eqn:Rd; try discriminate. injection H as ->.
  exists k. rewrite Rd. now destruct (read_rep k st h t st' Rd) as [-> _].
Qed.
(** The root is one cell, whose content changes; with it, the trees of C70. *)
Example C80_case_reads : srt_tree (snd x0) = srt_tree (snd x1) /\ srt_tree (snd x1) = srt_tree (snd x2) /\
  Forall2 (fun c t => tree_reads (within HOME (fst c)) (snd c) t) [x0; x1; x2] (rev [memo_t2; memo_t1; memo_t0]).
Proof.
  split; [vm_compute; reflexivity|]. split; [vm_compute; reflexivity|].
  repeat (apply Forall2_cons; [split; [vm_compute; reflexivity|apply (read_gives _ _ _ 80); vm_compute; reflexivity]|]). apply Forall2_nil.
Qed.
(** 13 nodes at first, then 4 and 6 and 1. *)
Example C80_case :
  rans (inc_runs sums [x0; x1; x2; x2] no_entries) = Some [13; 4; 6; 1] /\
  rans (inc_runs (i_rt_fold_lr (Nsp := FOLD) eqC Nat.eq_dec 80 Nat.add 0) [x0; x1; x2; x2] no_entries) = Some [13; 7; 9; 1].
Proof. split; vm_compute; reflexivity. Qed.
