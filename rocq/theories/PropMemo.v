(** * Properties of the memoised computations (C69 to C72). *)

From Verif Require Import Base Spec SpecRaz LevelTreeModel TreeSpec TreeCursorModel RazMetaModel RazModel
  RazView RazScripts RazReach RazExamples MemoModel MemoSpec MemoProofs MemoCost MemoLR MemoHistory.

(** C69. Run after run on any trees, with any names, every memoised computation answers
    what the plain one does. *)
Theorem C69_tree_fold_up_meta : forall (A R : Type) (eqA : forall x y : A, {x = y} + {x <> y})
    (f : option R -> A -> level -> option name -> option R -> res R) (ts : list (tree A)),
  answer (runs (m_fold_up_meta eqA f) ts no_memos) = all_ok (map (t_fold_up_meta f) ts).
Proof.
  intros. apply (runs_sound _ (t_fold_up_meta f)); [|apply no_memos_sound].
  intros t tab S. now apply fold_up_sound.
Qed.
Print Assumptions C69_tree_fold_up_meta.

Theorem C69_tree_fold_lr_meta : forall (A R : Type) (eqA : forall x y : A, {x = y} + {x <> y})
    (eqR : forall x y : R, {x = y} + {x <> y}) (f : R -> A -> level -> option name -> R)
    (calls : list (tree A * option name * R)),
  answer (runs (fun c => m_fold_lr_meta eqA eqR f (fst (fst c)) (snd (fst c)) (snd c)) calls no_memos) =
  Ok (map (fun c => t_fold_lr_meta f (fst (fst c)) (snd (fst c)) (snd c)) calls).
Proof.
  intros. rewrite <- all_ok_Ok. apply (runs_sound _ (lr_pure f)); [|apply no_memos_sound].
  intros [[t s] a] tab S. now apply fold_lr_sound.
Qed.
Print Assumptions C69_tree_fold_lr_meta.

Theorem C69_tree_map : forall (A B : Type) (eqA : forall x y : A, {x = y} + {x <> y})
    (f : A -> level -> option name -> option (tree B) -> option (tree B) -> res B) (ts : list (tree A)),
  answer (runs (m_map eqA f) ts no_memos) = all_ok (map (t_map f) ts).
Proof.
  intros. unfold m_map. erewrite map_ext by apply t_map_fold.
  apply C69_tree_fold_up_meta.
Qed.
Print Assumptions C69_tree_map.

Theorem C69_fold_up : forall (E M : Type) (RM : RazMeta E M) (eqD : forall x y : tree_data E M, {x = y} + {x <> y})
    (R : Type) (init : E -> R) (bin : R -> R -> R) (ts : list (raz_tree E M)),
  answer (runs (m_rt_fold_up eqD init bin) ts no_memos) = all_ok (map (fun t => rt_fold_up t init bin) ts).
Proof. intros. exact (up_answers eqD (up_node init bin) ts). Qed.
Print Assumptions C69_fold_up.

Theorem C69_fold_up_nl : forall (E M : Type) (RM : RazMeta E M) (eqD : forall x y : tree_data E M, {x = y} + {x <> y})
    (R : Type) (init : E -> R) (bin : R -> R -> R) (binnl : R -> level -> option name -> R -> R)
    (ts : list (raz_tree E M)),
  answer (runs (m_rt_fold_up_nl eqD init bin binnl) ts no_memos) =
  all_ok (map (fun t => rt_fold_up_nl t init bin binnl) ts).
Proof. intros. exact (up_answers eqD (up_nl_node init bin binnl) ts). Qed.
Print Assumptions C69_fold_up_nl.

Theorem C69_fold_up_gauged : forall (E M : Type) (RM : RazMeta E M)
    (eqD : forall x y : tree_data E M, {x = y} + {x <> y})
    (R : Type) (init : list E -> res R) (bin : R -> level -> option name -> R -> res R) (ts : list (raz_tree E M)),
  answer (runs (m_rt_fold_up_gauged eqD init bin) ts no_memos) =
  all_ok (map (fun t => rt_fold_up_gauged t init bin) ts).
Proof. intros. exact (up_answers eqD (up_gauged_node init bin) ts). Qed.
Print Assumptions C69_fold_up_gauged.

Theorem C69_fold_lr : forall (E M : Type) (RM : RazMeta E M) (eqD : forall x y : tree_data E M, {x = y} + {x <> y})
    (R : Type) (eqR : forall x y : R, {x = y} + {x <> y}) (init : R) (bin : R -> E -> R) (ts : list (raz_tree E M)),
  answer (runs (m_rt_fold_lr eqD eqR bin init) ts no_memos) = Ok (map (fun t => rt_fold_lr t init bin) ts).
Proof. intros. rewrite <- all_ok_Ok. exact (lr_answers eqD eqR (lr_node bin (fun a _ => a)) init ts). Qed.
Print Assumptions C69_fold_lr.

Theorem C69_fold_lr_meta : forall (E M : Type) (RM : RazMeta E M)
    (eqD : forall x y : tree_data E M, {x = y} + {x <> y}) (R : Type) (eqR : forall x y : R, {x = y} + {x <> y})
    (init : R) (bin : R -> E -> R) (meta : R -> level * option name -> R) (ts : list (raz_tree E M)),
  answer (runs (m_rt_fold_lr_meta eqD eqR bin meta init) ts no_memos) =
  Ok (map (fun t => rt_fold_lr_meta t init bin meta) ts).
Proof. intros. rewrite <- all_ok_Ok. exact (lr_answers eqD eqR (lr_node bin meta) init ts). Qed.
Print Assumptions C69_fold_lr_meta.

Theorem C69_fold_lr_archive : forall (E M : Type) (RM : RazMeta E M)
    (eqD : forall x y : tree_data E M, {x = y} + {x <> y}) (R : Type) (eqR : forall x y : R, {x = y} + {x <> y})
    (init : R) (bin : R -> E -> R) (finbin : R -> option name -> R) (meta : R -> level -> R)
    (ts : list (raz_tree E M)),
  answer (runs (m_rt_fold_lr_archive eqD eqR bin finbin meta init) ts no_memos) =
  Ok (map (fun t => rt_fold_lr_archive t init bin finbin meta) ts).
Proof. intros. rewrite <- all_ok_Ok. exact (lr_answers eqD eqR (lr_archive_node bin finbin meta) init ts). Qed.
Print Assumptions C69_fold_lr_archive.

Theorem C69_map : forall (E M : Type) (RM : RazMeta E M) (eqD : forall x y : tree_data E M, {x = y} + {x <> y})
    (R N : Type) (RN : RazMeta R N) (f : E -> R) (ts : list (raz_tree E M)),
  answer (runs (m_rt_map eqD (RN := RN) f) ts no_memos) = all_ok (map (rt_map f) ts).
Proof. intros. apply map_answers. Qed.
Print Assumptions C69_map.

(** C70. Reached trees, [t'] after [t] after the [older] ones, all archive points named
    and no name used again once it has gone. When [mid] between [pre] and [post] has
    become [mid'], a rerun of a bottom-up computation enters at most one node, and two for
    each archive point in [mid'], each one of [pre] that looks back over lower ones only
    and each one of [post] that is above all before it; ... *)
Theorem C70_rerun_fold_up : forall (E M : Type) (RM : RazMeta E M)
    (eqD : forall x y : tree_data E M, {x = y} + {x <> y})
    (R : Type) (f : option R -> tree_data E M -> level -> option name -> option R -> res R)
    (t t' : raz_tree E M) older pre mid mid' post rs T lgs x T' lg,
  Forall (fun t => tree_reached false t) (t' :: t :: older) ->
  orderly_points (map contents (t' :: t :: older)) ->
  contents t = pre ++ mid ++ post -> contents t' = pre ++ mid' ++ post ->
  runs (on_tree (m_fold_up_meta eqD f)) (rev (t :: older)) no_memos = Ok (rs, T, lgs) ->
  on_tree (m_fold_up_meta eqD f) t' T = Ok (x, T', lg) ->
  length lg <= 1 + 2 * (seen_from_right pre + length (marks mid') + seen_from_left 0%N post).
Proof. intros. eapply up_cost; eassumption. Qed.
Print Assumptions C70_rerun_fold_up.

Theorem C70_rerun_map : forall (E M : Type) (RM : RazMeta E M)
    (eqD : forall x y : tree_data E M, {x = y} + {x <> y}) (R N : Type) (RN : RazMeta R N) (f : E -> R)
    (t t' : raz_tree E M) older pre mid mid' post rs T lgs x T' lg,
  Forall (fun t => tree_reached false t) (t' :: t :: older) ->
  orderly_points (map contents (t' :: t :: older)) ->
  contents t = pre ++ mid ++ post -> contents t' = pre ++ mid' ++ post ->
  runs (m_rt_map eqD (RN := RN) f) (rev (t :: older)) no_memos = Ok (rs, T, lgs) ->
  m_rt_map eqD (RN := RN) f t' T = Ok (x, T', lg) ->
  length lg <= 1 + 2 * (seen_from_right pre + length (marks mid') + seen_from_left 0%N post).
Proof.
  intros E M RM eqD R N RN f t t' older pre mid mid' post rs T lgs x T' lg A B C D H F.
  destruct (map_runs eqD (RN := RN) f) as (up & X & Y). apply X in F. destruct F as (y & F).
  apply Y in H. destruct H as (rs' & H). eapply up_cost; eassumption.
Qed.
Print Assumptions C70_rerun_map.

(** ... on an unchanged sequence it enters no more than the root; ... *)
Theorem C70_rerun_unchanged : forall (E M : Type) (RM : RazMeta E M)
    (eqD : forall x y : tree_data E M, {x = y} + {x <> y})
    (R : Type) (f : option R -> tree_data E M -> level -> option name -> option R -> res R)
    (t t' : raz_tree E M) older rs T lgs x T' lg,
  Forall (fun t => tree_reached false t) (t' :: t :: older) ->
  orderly_points (map contents (t' :: t :: older)) -> contents t' = contents t ->
  runs (on_tree (m_fold_up_meta eqD f)) (rev (t :: older)) no_memos = Ok (rs, T, lgs) ->
  on_tree (m_fold_up_meta eqD f) t' T = Ok (x, T', lg) -> length lg <= 1.
Proof. intros E M RM eqD R f t t' older rs T lgs x T' lg A B C H F. exact (up_again eqD t t' older A B C f _ _ _ _ _ _ H F). Qed.
Print Assumptions C70_rerun_unchanged.

(** ... in general, on level trees, at most one node and two for each inner node that
    was not there before. *)
Theorem C70_rerun_tree : forall (A : Type) (eqA : forall x y : A, {x = y} + {x <> y})
    (R : Type) (f : option R -> A -> level -> option name -> option R -> res R)
    (t t' : tree A) older rs T lgs x T' lg,
  orderly (t' :: t :: older) ->
  runs (m_fold_up_meta eqA f) (rev (t :: older)) no_memos = Ok (rs, T, lgs) ->
  m_fold_up_meta eqA f t' T = Ok (x, T', lg) ->
  length lg <= 1 + 2 * changed eqA t t'.
Proof. intros. eapply history_cost; eassumption. Qed.
Print Assumptions C70_rerun_tree.

(** Without names it is everything, whatever has been run before. *)
Theorem C70_unnamed_reruns_all : forall (A : Type) (eqA : forall x y : A, {x = y} + {x <> y})
    (R : Type) (f : option R -> A -> level -> option name -> option R -> res R) (t : tree A) T x T' lg,
  names t = [] -> m_fold_up_meta eqA f t T = Ok (x, T', lg) -> length lg = length (subtrees t).
Proof. intros A eqA R f t T x T' lg N H. now destruct (unnamed_reruns eqA f t N T x T' lg H). Qed.
Print Assumptions C70_unnamed_reruns_all.

(** C71. A left-to-right computation reruns the nodes after the change as well, since
    its accumulator is an argument of every call. *)
Theorem C71_rerun_fold_lr_meta : forall (E M : Type) (RM : RazMeta E M)
    (eqD : forall x y : tree_data E M, {x = y} + {x <> y})
    (R : Type) (eqR : forall x y : R, {x = y} + {x <> y}) (init : R) (bin : R -> E -> R)
    (meta : R -> level * option name -> R)
    (t t' : raz_tree E M) older pre mid mid' post rs T lgs x T' lg,
  Forall (fun t => tree_reached false t) (t' :: t :: older) ->
  orderly_points (map contents (t' :: t :: older)) ->
  contents t = pre ++ mid ++ post -> contents t' = pre ++ mid' ++ post ->
  runs (m_rt_fold_lr_meta eqD eqR bin meta init) (rev (t :: older)) no_memos = Ok (rs, T, lgs) ->
  m_rt_fold_lr_meta eqD eqR bin meta init t' T = Ok (x, T', lg) ->
  length lg <= 1 + 2 * (seen_from_right pre + length (marks mid') + length (marks post)).
Proof.
  intros E M RM eqD R eqR init bin meta t t' older pre mid mid' post rs T lgs x T' lg A B C D H F.
  refine (lr_cost eqD t t' older pre mid mid' post A B C D eqR _ (fun a lv nm => meta a (lv, nm)) init _ _ _ _ _ _ _ H F).
  reflexivity.
Qed.
Print Assumptions C71_rerun_fold_lr_meta.

Theorem C71_rerun_fold_lr_archive : forall (E M : Type) (RM : RazMeta E M)
    (eqD : forall x y : tree_data E M, {x = y} + {x <> y})
    (R : Type) (eqR : forall x y : R, {x = y} + {x <> y}) (init : R) (bin : R -> E -> R)
    (finbin : R -> option name -> R) (meta : R -> level -> R)
    (t t' : raz_tree E M) older pre mid mid' post rs T lgs x T' lg,
  Forall (fun t => tree_reached false t) (t' :: t :: older) ->
  orderly_points (map contents (t' :: t :: older)) ->
  contents t = pre ++ mid ++ post -> contents t' = pre ++ mid' ++ post ->
  runs (m_rt_fold_lr_archive eqD eqR bin finbin meta init) (rev (t :: older)) no_memos = Ok (rs, T, lgs) ->
  m_rt_fold_lr_archive eqD eqR bin finbin meta init t' T = Ok (x, T', lg) ->
  length lg <= 1 + 2 * (seen_from_right pre + length (marks mid') + length (marks post)).
Proof.
  intros E M RM eqD R eqR init bin finbin meta t t' older pre mid mid' post rs T lgs x T' lg A B C D H F.
  refine (lr_cost eqD t t' older pre mid mid' post A B C D eqR _ (fun a lv nm => meta a lv) init _ _ _ _ _ _ _ H F).
  reflexivity.
Qed.
Print Assumptions C71_rerun_fold_lr_archive.

Theorem C71_rerun_unchanged : forall (E M : Type) (RM : RazMeta E M)
    (eqD : forall x y : tree_data E M, {x = y} + {x <> y})
    (R : Type) (eqR : forall x y : R, {x = y} + {x <> y}) (init : R) (bin : R -> E -> R)
    (meta : R -> level * option name -> R) (t t' : raz_tree E M) older rs T lgs x T' lg,
  Forall (fun t => tree_reached false t) (t' :: t :: older) ->
  orderly_points (map contents (t' :: t :: older)) -> contents t' = contents t ->
  runs (m_rt_fold_lr_meta eqD eqR bin meta init) (rev (t :: older)) no_memos = Ok (rs, T, lgs) ->
  m_rt_fold_lr_meta eqD eqR bin meta init t' T = Ok (x, T', lg) -> length lg <= 1.
Proof.
  intros E M RM eqD R eqR init bin meta t t' older rs T lgs x T' lg A B C H F.
  exact (lr_again eqD t t' older A B C eqR _ init _ _ _ _ _ _ H F).
Qed.
Print Assumptions C71_rerun_unchanged.

(** ** Examples *)
#[local] Open Scope N_scope.
Bind Scope N_scope with level.
Definition nm_k (k : N) : name := NNum k.
(** 1 |1:3| 2 |2:1| 3 |3:4| 4 |4:2| 5 |5:5| 6 |6:1| 7, then with 8 after the 5, then with
    another archive point after that. *)
Definition memo_ops (extra : list (zop nat)) : list (zop nat) :=
  ([OPushL 1; OArchL 3 (Some (nm_k 1)); OPushL 2; OArchL 1 (Some (nm_k 2)); OPushL 3; OArchL 4 (Some (nm_k 3));
   OPushL 4; OArchL 2 (Some (nm_k 4)); OPushL 5]%nat ++ extra ++
  [OArchL 5 (Some (nm_k 5)); OPushL 6; OArchL 1 (Some (nm_k 6)); OPushL 7])%nat%list.
Definition memo_t0 : raz_tree nat count := Eval vm_compute in raz_to_tree (run_raz (memo_ops [])).
Definition memo_t1 : raz_tree nat count := Eval vm_compute in raz_to_tree (run_raz (memo_ops [OPushL 8%nat])).
Definition memo_t2 : raz_tree nat count := Eval vm_compute in
  raz_to_tree (run_raz (memo_ops [OPushL 8%nat; OArchL 1 (Some (nm_k 7)); OPushL 9%nat])).
Lemma memo_reached : Forall (fun t => tree_reached false t) [memo_t2; memo_t1; memo_t0].
Proof.
  assert (X : forall extra t, Forall zop_ok (memo_ops extra) ->
    (exists os z, zrun raz_new (memo_ops extra) = Ok (os, z) /\ unfocus z = Ok t) -> tree_reached (E := nat) (M := count) false t).
  { intros extra t F (os & z & R & U). eapply TR_unfocus; [|exact U]. eapply zrun_reached; [exact F|apply RR_new|exact R]. }
  apply Forall_cons; [|apply Forall_cons; [|apply Forall_cons; [|apply Forall_nil]]].
  - apply (X [OPushL 8%nat; OArchL 1 (Some (nm_k 7)); OPushL 9%nat]); [repeat constructor; simpl; lia|].
    eexists _, _. split; vm_compute; reflexivity.
  - apply (X [OPushL 8%nat]); [repeat constructor; simpl; lia|]. eexists _, _. split; vm_compute; reflexivity.
  - apply (X []); [repeat constructor; simpl; lia|]. eexists _, _. split; vm_compute; reflexivity.
Qed.
Fixpoint nodup_eqb (l : list (option name)) : bool :=
  match l with
  | [] => true
  | a :: r => if existsb (fun b => if oname_eq_dec a b then true else false) r then false else nodup_eqb r
  end.
Lemma memo_orderly : orderly_points (map contents [memo_t2; memo_t1; memo_t0]).
Proof.
  assert (ND : forall l : list (option name), (if nodup_eqb l then True else False) -> NoDup l).
  { induction l as [|a l IH]; intros H; [constructor|]. cbn [nodup_eqb] in H.
    destruct (existsb (fun b => if oname_eq_dec a b then true else false) l) eqn:Ex; [contradiction|].
    constructor; [|now apply IH]. intros I. rewrite <- not_true_iff_false in Ex. apply Ex, existsb_exists.
    exists a. split; [exact I|]. now destruct (oname_eq_dec a a). }
  cbn [map orderly_points].
  repeat match goal with |- _ /\ _ => split end; try exact I.
  all: try (intros p Hp; vm_compute in Hp; repeat (destruct Hp as [<-|Hp]; [discriminate|]); contradiction).
  all: try (apply ND; vm_compute; exact I).
  - intros n _. exact I.
  - intros n H. left. exact H.
  - intros n H. vm_compute in H.
    repeat (destruct H as [H|H]; [injection H as <-; try (left; vm_compute; tauto)|]); [|contradiction].
    right. intros u [<-|[<-|[]]] Q; vm_compute in Q; repeat (destruct Q as [Q|Q]; [discriminate|]); contradiction.
Qed.

Definition eq_count : forall x y : count, {x = y} + {x <> y}.
Proof. intros [a] [b]. destruct (N.eq_dec a b); [left|right]; congruence. Defined.
Definition eqC := td_eq_dec (E := nat) (M := count) Nat.eq_dec eq_count.
Definition ran {X Y Z} (m : res (X * Y * list Z)) : option nat :=
  match m with Ok (_, _, lg) => Some (length lg) | _ => None end.
(** The numbers of nodes entered in successive runs. *)
Definition rans {X Y Z} (m : res (X * Y * list (list Z))) : option (list nat) :=
  match m with Ok (_, _, lgs) => Some (map (@length Z) lgs) | _ => None end.

Example C69_case :
  answer (runs (m_rt_fold_up eqC (fun e => e) Nat.add) [memo_t0; memo_t1; memo_t2; memo_t0; ex_tc] no_memos) =
    Ok [Some 28; Some 36; Some 45; Some 28; Some 21]%nat /\
  answer (runs (m_rt_fold_lr eqC (list_eq_dec Nat.eq_dec) (fun a e => e :: a) []) [memo_t0; memo_t1; memo_t0] no_memos) =
    Ok [[7; 6; 5; 4; 3; 2; 1]; [7; 6; 8; 5; 4; 3; 2; 1]; [7; 6; 5; 4; 3; 2; 1]]%nat.
Proof. split; vm_compute; reflexivity. Qed.

(** 13 nodes at first; for the 8 the root, the nodes of names 3 and 4 and the leaf
    after that; two more for the new archive point; in the end the root. *)
Example C70_case :
  rans (runs (m_rt_fold_up eqC (fun e => e) Nat.add) [memo_t0; memo_t1; memo_t2; memo_t2] no_memos) =
    Some [13; 4; 6; 1]%nat /\
  rans (runs (m_rt_map eqC (RN := count_meta nat) S) [memo_t0; memo_t1; memo_t2; memo_t2] no_memos) =
    Some [13; 4; 6; 1]%nat /\
  exists pre mid mid' post, contents memo_t1 = pre ++ mid ++ post /\ contents memo_t2 = pre ++ mid' ++ post /\
    (seen_from_right pre + length (marks mid') + seen_from_left 0 post = 4)%nat.
Proof.
  split; [vm_compute; reflexivity|]. split; [vm_compute; reflexivity|].
  exists (firstn 10 (contents memo_t1)), [], (firstn 2 (skipn 10 (contents memo_t2))), (skipn 10 (contents memo_t1)).
  repeat split; vm_compute; reflexivity.
Qed.

(** The three later nodes as well. *)
Example C71_case :
  rans (runs (m_rt_fold_lr eqC Nat.eq_dec Nat.add 0%nat) [memo_t0; memo_t1; memo_t2; memo_t2] no_memos) =
    Some [13; 7; 9; 1]%nat /\
  exists pre mid mid' post, contents memo_t1 = pre ++ mid ++ post /\ contents memo_t2 = pre ++ mid' ++ post /\
    (seen_from_right pre + length (marks mid') + length (marks post) = 5)%nat.
Proof.
  split; [vm_compute; reflexivity|].
  exists (firstn 10 (contents memo_t1)), [], (firstn 2 (skipn 10 (contents memo_t2))), (skipn 10 (contents memo_t1)).
  repeat split; vm_compute; reflexivity.
Qed.

Example C70_unnamed_case : let t := Node 2%N None 1%nat (Some (Node 0%N None 2%nat None None)) (Some (Node 0%N None 3%nat None None)) in
  names t = [] /\
  rans (runs (m_fold_up_meta Nat.eq_dec (fun l d _ _ r => Ok (S d))) [t; t] no_memos) = Some [3; 3]%nat.
Proof. split; reflexivity. Qed.

(** C72. The functions are not among the arguments compared, so two computations of the
    same kind over the same tree need different namespaces: the second one answers with
    results of the first. *)
Theorem C72_two_folds_one_namespace_refuted : exists (t : raz_tree nat count) (f g : nat -> nat) T lg r T' lg',
  tree_reached false t /\
  m_rt_fold_up eqC f Nat.add t no_memos = Ok (r, T, lg) /\
  answer (m_rt_fold_up eqC g Nat.add t T) <> rt_fold_up t g Nat.add /\
  m_rt_fold_up eqC g Nat.add t T = Ok (r, T', lg').
Proof.
  exists memo_t0, (fun e => e), (fun _ => 1%nat). do 5 eexists.
  split; [pose proof memo_reached as H; rewrite Forall_forall in H; apply H; right; right; left; reflexivity|].
  split; [vm_compute; reflexivity|]. split; [vm_compute; discriminate|]. vm_compute. reflexivity.
Qed.
Print Assumptions C72_two_folds_one_namespace_refuted.

Theorem C72_two_maps_one_namespace_refuted : exists (t : raz_tree nat count) (f g : nat -> nat) T lg r,
  tree_reached false t /\
  m_rt_map eqC (RN := count_meta nat) f t no_memos = Ok (r, T, lg) /\
  answer (m_rt_map eqC (RN := count_meta nat) g t T) = Ok r /\ rt_map (RN := count_meta nat) g t <> Ok r.
Proof.
  exists memo_t0, (fun e => e), S. do 3 eexists.
  split; [pose proof memo_reached as H; rewrite Forall_forall in H; apply H; right; right; left; reflexivity|].
  split; [vm_compute; reflexivity|]. split; [vm_compute; reflexivity|]. vm_compute. discriminate.
Qed.
Print Assumptions C72_two_maps_one_namespace_refuted.
