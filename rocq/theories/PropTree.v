(** * Properties of levels, level trees and their cursor (C33..C41). *)

From Verif Require Import Base LevelTreeModel TreeCursorModel TreeSpec TreeProofs CursorProofs CursorScripts
  CursorFacts LevelGenModel LevelGenProofs.

(** C33. Generated levels. *)
Theorem C33_level_range : forall n, (n < 2 ^ 64)%N ->
  (1 <= gen_branch_level n <= 64)%N /\ negbin_rand n = gen_branch_level n /\
  (gen_branch_level n = 64%N <-> n = 0%N \/ n = (2 ^ 63)%N).
Proof. exact gen_level_range. Qed.
Print Assumptions C33_level_range.

Theorem C33_level_distribution : forall k, (1 <= k)%N -> (k < 64)%N ->
  exists l : list N, NoDup l /\ N.of_nat (length l) = (2 ^ (64 - k))%N /\
    forall n, In n l <-> (n < 2 ^ 64)%N /\ gen_branch_level n = k.
Proof. exact gen_level_count. Qed.
Print Assumptions C33_level_distribution.

Example C33_case : gen_branch_level 40 = 4%N /\ gen_branch_level 0 = 64%N /\
  gen_branch_level (2 ^ 62) = 63%N /\ gen_branch_level (2 ^ 64 - 1) = 1%N.
Proof. repeat split. Qed.

#[local] Instance keep_nat : TreeUpdate nat := derive_tree_update nat.
#[local] Arguments Node {A} _%N_scope _ _ _ _.
Definition lf (lev : N) (x : nat) : option (tree nat) := Some (Node lev None x None None).

(** C34. What [good_levels] checks. *)
Theorem C34_good_levels_checks_mirror : forall (A : Type) (t : tree A), good_levels t = true <-> mirrored t.
Proof. intros A. exact good_levels_spec. Qed.
Print Assumptions C34_good_levels_checks_mirror.

(** A tree made by [join] from two good ones, with the same level twice in a row,
    is rejected. *)
Theorem C34_rejects_joined_refuted : exists c t,
  c_join (c_from (Node 3 None 1 None None)) 3%N None 2 c_new = Ok c /\
  whole c = Ok (Some t) /\ good_levels t = false /\ conventional t.
Proof. do 2 eexists. split; [vm_compute; reflexivity|]. split; [vm_compute; reflexivity|]. repeat split; simpl; lia. Qed.
Print Assumptions C34_rejects_joined_refuted.

(** A tree that [good_levels] accepts loses nodes by moving down and up. *)
Definition mirror_tree : tree nat := Node 3 None 2 (Some (Node 3 None 1 (lf 1%N 0) (lf 1%N 7))) (lf 1%N 3).
Theorem C34_accepted_tree_mangled_refuted : exists c o,
  good_levels mirror_tree = true /\
  moves (c_from mirror_tree) [MDownLeft; MDownRight; MUp] = Ok c /\
  whole c = Ok o /\ o <> Some mirror_tree.
Proof.
  do 2 eexists. split; [reflexivity|]. split; [vm_compute; reflexivity|]. split; [vm_compute; reflexivity|discriminate].
Qed.
Print Assumptions C34_accepted_tree_mangled_refuted.

(** C35. Moves change nothing. *)
Theorem C35_moves_keep_tree : forall (A : Type) (TU : TreeUpdate A) (t : tree A) ms,
  conventional t -> exists c, moves (c_from t) ms = Ok c /\ whole c = Ok (Some t).
Proof. intros A TU. exact moves_keep_tree. Qed.
Print Assumptions C35_moves_keep_tree.

Theorem C35_moves_keep_nodes : forall (A B : Type) (TU : TreeUpdate A) (g : A -> B), keeps g ->
  forall (c : cursor A) m, cursor_reached c ->
  exists c' o o', move_step c m = Ok c' /\ whole c = Ok o /\ whole c' = Ok o' /\ nodes g o' = nodes g o.
Proof. intros A B TU g K. exact (reached_move g K). Qed.
Print Assumptions C35_moves_keep_nodes.

Definition ex_tree : tree nat :=
  Node 5 None 4 (Some (Node 4 None 2 (lf 1%N 1) (lf 4%N 3))) (Some (Node 5 None 6 (lf 2%N 5) (lf 3%N 7))).
Example C35_case : conventional ex_tree /\
  map snd (inorder ex_tree) = [1; 2; 3; 4; 5; 6; 7] /\
  (do c <- moves (c_from ex_tree) [MDownLeft; MForceRight; MForceRight; MUp; MUp; MDownLeft]; Ok (c_peek c))
    = Ok (Some 1).
Proof. split; [cbn; lia|]. split; reflexivity. Qed.

(** C36. [up] undoes [down]. Positions are those inside a conventional tree ... *)
Theorem C36_up_undoes_down : forall (A : Type) (TU : TreeUpdate A) (t : tree A) c f c',
  conventional t -> inside t c -> f <> ForceDiscard ->
  (down_left_force f c = (true, c') -> up c' = Ok (UpRight, c)) /\
  (down_right_force f c = (true, c') -> up c' = Ok (UpLeft, c)).
Proof.
  intros A TU t c f c' C I F.
  exact (conj (down_left_up c c' f (inside_corder t c C I) F) (down_right_up c c' f (inside_corder t c C I) F)).
Qed.
Print Assumptions C36_up_undoes_down.

(** ... or any cursor obtained by moves, splits and joins, dirty or not. *)
Theorem C36_up_undoes_down_reached : forall (A : Type) (TU : TreeUpdate A) (c : cursor A) f c',
  keeps (fun _ : A => tt) -> cursor_reached c -> f <> ForceDiscard ->
  (down_left_force f c = (true, c') -> up c' = Ok (UpRight, c)) /\
  (down_right_force f c = (true, c') -> up c' = Ok (UpLeft, c)).
Proof.
  intros A TU c f c' K H F.
  exact (conj (down_left_up c c' f (proj2 (reached_wf _ K c H)) F) (down_right_up c c' f (proj2 (reached_wf _ K c H)) F)).
Qed.
Print Assumptions C36_up_undoes_down_reached.

Theorem C36_down_undoes_up : forall (A : Type) (TU : TreeUpdate A) (t : tree A) c,
  conventional t -> inside t c ->
  (c = c_from t /\ up c = Ok (UpFail, c)) \/
  (exists c', up c = Ok (UpRight, c') /\ inside t c' /\ down_left_force ForceYes c' = (true, c) /\
     forest_len c = S (forest_len c')) \/
  (exists c', up c = Ok (UpLeft, c') /\ inside t c' /\ down_right_force ForceYes c' = (true, c) /\
     forest_len c = S (forest_len c')).
Proof. intros A TU. exact inside_up. Qed.
Print Assumptions C36_down_undoes_up.

Example C36_case : exists c c', conventional ex_tree /\ inside ex_tree c /\
  down_right c = (true, c') /\ c_peek c' = Some 3.
Proof.
  exists (snd (down_left (c_from ex_tree))). eexists. split; [cbn; lia|].
  split; [exact (in_left ex_tree (c_from ex_tree) ex_tree (in_root _) eq_refl)|]. split; reflexivity.
Qed.

(** C37. Bad levels: three moves on a five node tree change the sequence. *)
Definition bad_tree : tree nat := Node 1 None 3 (Some (Node 2 None 1 (lf 1%N 0) (lf 1%N 2))) (lf 0%N 4).
Theorem C37_bad_levels_refuted : exists c o,
  moves (c_from bad_tree) [MDownLeft; MDownRight; MUp] = Ok c /\ whole c = Ok o /\
  option_map (fun t => map snd (inorder t)) o <> Some (map snd (inorder bad_tree)).
Proof. do 2 eexists. split; [vm_compute; reflexivity|]. split; [vm_compute; reflexivity|discriminate]. Qed.
Print Assumptions C37_bad_levels_refuted.

(** C38. [join] and [split]. [g] is the part of the data that [rebuild] keeps (all
    of it for the derived implementation). *)
Theorem C38_join : forall (A B : Type) (TU : TreeUpdate A) (g : A -> B), keeps g ->
  forall l lev nm d r, cursor_reached l -> cursor_reached r ->
  exists c lo ro o, c_join l lev nm d r = Ok c /\ whole l = Ok lo /\ whole r = Ok ro /\ whole c = Ok o /\
    nodes g o = nodes g lo ++ (lev, nm, g d) :: nodes g ro /\ oconventional o.
Proof. intros A B TU g K. exact (reached_join g K). Qed.
Print Assumptions C38_join.

Theorem C38_split : forall (A B : Type) (TU : TreeUpdate A) (g : A -> B), keeps g ->
  forall (c : cursor A) l u r, cursor_reached c -> c_split c = (l, Some u, r) ->
  exists o lo ro, whole c = Ok o /\ whole l = Ok lo /\ whole r = Ok ro /\
    nodes g o = nodes g lo ++ (t_level u, t_name u, g (t_peek u)) :: nodes g ro /\
    oconventional o /\ oconventional lo /\ oconventional ro.
Proof. intros A B TU g K. exact (reached_split g K). Qed.
Print Assumptions C38_split.

Theorem C38_split_join : forall (A B : Type) (TU : TreeUpdate A) (g : A -> B), keeps g ->
  forall (c : cursor A) l u r, cursor_reached c -> c_split c = (l, Some u, r) ->
  exists c' o o', c_join l (t_level u) (t_name u) (t_peek u) r = Ok c' /\
    whole c = Ok o /\ whole c' = Ok o' /\ option_map (relabel g) o' = option_map (relabel g) o.
Proof. intros A B TU g K. exact (reached_split_join g K). Qed.
Print Assumptions C38_split_join.

Example C38_case : keeps (fun x : nat => x) /\
  exists c, moves (c_from ex_tree) [MDownLeft; MDownRight] = Ok c /\ cursor_reached c /\
  (let '(l, o, r) := c_split c in
   do c' <- c_join l 4%N None 3 r; whole c') = Ok (Some ex_tree) /\
  (let '(l, o, r) := c_split c in
   do c' <- c_join l 9%N None 8 r; do o <- whole c'; Ok (map snd (oinorder o))) = Ok [1; 2; 8; 4; 5; 6; 7].
Proof.
  split; [intros l d lev nm r; exists d; auto|]. eexists. split; [vm_compute; reflexivity|].
  split; [|split; vm_compute; reflexivity].
  refine (CR_move _ MDownRight _ (CR_move _ MDownLeft _ (CR_from ex_tree _) eq_refl) eq_refl). cbn; lia.
Qed.

(** C39. The right iterator. *)
Theorem C39_right_iterator : forall (A B : Type) (TU : TreeUpdate A) (g : A -> B) (c : cursor A),
  keeps g -> cursor_reached c ->
  exists l r xs o pre post, into_iters c = Ok (l, c_tree c, r) /\ whole c = Ok o /\
    nodes g o = pre ++ match c_tree c with
                       | Some u => [(t_level u, t_name u, g (t_peek u))]
                       | None => [] end ++ post /\
    (forall u, c_tree c = Some u -> exists q, post = nodes g (t_right u) ++ q) /\
    map g xs = map snd post /\
    (forall n, iter_r_take n r = Ok (firstn n (map Some xs ++ repeat None n))) /\
    forall R (init : R) bin, fold_out r init bin = Ok (fold_left bin xs init).
Proof. intros A B TU. exact (@reached_iter A TU B). Qed.
Print Assumptions C39_right_iterator.

Example C39_case : exists c l o r, moves (c_from ex_tree) [MDownLeft; MDownRight] = Ok c /\
  into_iters c = Ok (l, o, r) /\ option_map t_peek o = Some 3 /\
  iter_r_take 6 r = Ok [Some 4; Some 5; Some 6; Some 7; None; None] /\
  fold_out r 0 plus = Ok 22.
Proof.
  do 4 eexists. split; [vm_compute; reflexivity|]. split; [vm_compute; reflexivity|].
  split; [reflexivity|]. split; vm_compute; reflexivity.
Qed.

(** C40. Discarding moves. *)
Theorem C40_discard : forall (A B : Type) (TU : TreeUpdate A) (g : A -> B), keeps g ->
  forall (c : cursor A) t, cursor_reached c -> c_tree c = Some t ->
  exists c1 c2 o o1 o2 pre post,
    down_left_force ForceDiscard c = (true, c1) /\ down_right_force ForceDiscard c = (true, c2) /\
    whole c = Ok o /\ whole c1 = Ok o1 /\ whole c2 = Ok o2 /\
    nodes g o = pre ++ (nodes g (t_left t) ++ (t_level t, t_name t, g (t_peek t)) :: nodes g (t_right t)) ++ post /\
    nodes g o1 = pre ++ nodes g (t_left t) ++ post /\
    nodes g o2 = pre ++ nodes g (t_right t) ++ post /\
    c_tree c1 = t_left t /\ c_tree c2 = t_right t.
Proof. intros A B TU g K. exact (reached_discard g K). Qed.
Print Assumptions C40_discard.

Example C40_case :
  (do c <- moves (c_from ex_tree) [MDownRight];
   do o <- whole (snd (down_left_force ForceDiscard c)); Ok (map snd (oinorder o))) = Ok [1; 2; 3; 4; 5].
Proof. vm_compute. reflexivity. Qed.

(** C41. Folds and maps of level trees. *)
Theorem C41_fold_lr : forall (A R : Type) (f : R -> A -> R) (t : tree A) acc,
  t_fold_lr f t acc = fold_left f (map snd (inorder t)) acc.
Proof. intros A R. exact fold_lr_spec. Qed.
Print Assumptions C41_fold_lr.

Theorem C41_fold_lr_meta : forall (A R : Type) (f : R -> A -> level -> option name -> R) (t : tree A) start acc,
  t_fold_lr_meta f t start acc = lr_spec f start acc (inorder_leaf t).
Proof. intros A R. exact fold_lr_meta_spec. Qed.
Print Assumptions C41_fold_lr_meta.

Theorem C41_fold_up : forall (A R : Type) (f : option R -> A -> level -> option name -> option R -> res R)
    (H : list (level * option name * A) -> R),
  (forall l r lv nm d,
     f (match l with [] => None | _ => Some (H l) end) d lv nm
       (match r with [] => None | _ => Some (H r) end) = Ok (H (l ++ (lv, nm, d) :: r))) ->
  forall t, t_fold_up_meta f t = Ok (H (inorder t)).
Proof. intros A R. exact fold_up_meta_spec. Qed.
Print Assumptions C41_fold_up.

Theorem C41_map : forall (A B : Type)
    (f : A -> level -> option name -> option (tree B) -> option (tree B) -> res B) (g : A -> B),
  (forall d lv nm l r, f d lv nm l r = Ok (g d)) ->
  forall t, exists t', t_map f t = Ok t' /\
    inorder t' = map (fun '(lv, nm, d) => (lv, nm, g d)) (inorder t) /\ skeleton t' = skeleton t.
Proof. intros A B. exact map_spec. Qed.
Print Assumptions C41_map.

Definition o_app (o : option (list nat)) : list nat := match o with Some l => l | None => [] end.
Example C41_case : t_fold_lr (fun a e => a ++ [e]) ex_tree [] = [1; 2; 3; 4; 5; 6; 7] /\
  t_fold_up (fun l d r => Ok (o_app l ++ d :: o_app r)) ex_tree = Ok [1; 2; 3; 4; 5; 6; 7] /\
  (do t <- t_map (fun d _ _ _ _ => Ok (d * 10)) ex_tree; Ok (map snd (inorder t))) = Ok [10; 20; 30; 40; 50; 60; 70].
Proof. repeat split; vm_compute; reflexivity. Qed.
