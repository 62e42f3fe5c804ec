(** * Proofs about level trees: induction, folds, maps. *)

From Verif Require Import Base BaseFacts LevelTreeModel TreeSpec.

Section TreeInd.
Context {A : Type} (P : tree A -> Prop).
Definition optP (o : option (tree A)) : Prop := match o with None => True | Some t => P t end.
Hypothesis step : forall lv nm d l r, optP l -> optP r -> P (Node lv nm d l r).
Fixpoint tree_rect' (t : tree A) : P t :=
  match t with
  | Node lv nm d l r =>
      step lv nm d l r
        (match l return optP l with None => I | Some t1 => tree_rect' t1 end)
        (match r return optP r with None => I | Some t2 => tree_rect' t2 end)
  end.
End TreeInd.

Lemma tree_induction {A} (P : tree A -> Prop) :
  (forall lv nm d l r, optP P l -> optP P r -> P (Node lv nm d l r)) -> forall t, P t.
Proof. exact (tree_rect' P). Qed.

Section Folds.
Context {A : Type}.

Lemma inorder_Node lv nm d (l r : option (tree A)) :
  inorder (Node lv nm d l r) = oinorder l ++ (lv, nm, d) :: oinorder r.
Proof. reflexivity. Qed.

Lemma inorder_eq (t : tree A) :
  inorder t = oinorder (t_left t) ++ (t_level t, t_name t, t_peek t) :: oinorder (t_right t).
Proof. destruct t. reflexivity. Qed.

Lemma inorder_leaf_inorder (t : tree A) : map snd (inorder_leaf t) = inorder t.
Proof.
  induction t as [lv nm d l r Hl Hr] using tree_induction. simpl.
  rewrite map_app. simpl. f_equal; [destruct l; simpl in *; auto|f_equal; destruct r; simpl in *; auto].
Qed.

Lemma inorder_nonempty (t : tree A) : inorder t <> [].
Proof. destruct t as [lv nm d l r]. rewrite inorder_Node. intros H. now apply app_eq_nil in H. Qed.

(** The first node is a leaf or has no left child, so its predecessor name is only
    used if it is a leaf; the name passed on does not matter after an inner node. *)
Lemma lr_spec_app {R} (f : R -> A -> level -> option name -> R) ns1 : forall ns2 prev acc,
  lr_spec f prev acc (ns1 ++ ns2) =
  lr_spec f (match rev ns1 with [] => prev | (_, (_, nm, _)) :: _ => nm end)
            (lr_spec f prev acc ns1) ns2.
Proof.
  induction ns1 as [|[b [[lv nm] d]] ns1 IH]; intros ns2 prev acc; [reflexivity|].
  simpl. destruct b; rewrite IH.
  - f_equal. simpl. destruct (rev ns1) as [|[? [[? ?] ?]] ?]; reflexivity.
  - f_equal. simpl. destruct (rev ns1) as [|[? [[? ?] ?]] ?]; reflexivity.
Qed.

Lemma fold_lr_meta_spec {R} (f : R -> A -> level -> option name -> R) (t : tree A) :
  forall start acc, t_fold_lr_meta f t start acc = lr_spec f start acc (inorder_leaf t).
Proof.
  induction t as [lv nm d l r Hl Hr] using tree_induction. intros start acc.
  simpl inorder_leaf.
  rewrite lr_spec_app. simpl.
  destruct l as [t1|], r as [t2|]; simpl in *.
  - rewrite <- Hl, <- Hr. reflexivity.
  - rewrite <- Hl. reflexivity.
  - rewrite <- Hr. reflexivity.
  - reflexivity.
Qed.

Lemma lr_spec_plain {R} (f : R -> A -> R) ns : forall prev acc,
  lr_spec (fun a e _ _ => f a e) prev acc ns = fold_left f (map (fun p => snd (snd p)) ns) acc.
Proof.
  induction ns as [|[b [[lv nm] d]] ns IH]; intros prev acc; [reflexivity|].
  simpl. destruct b; apply IH.
Qed.

Theorem fold_lr_spec {R} (f : R -> A -> R) (t : tree A) acc :
  t_fold_lr f t acc = fold_left f (map snd (inorder t)) acc.
Proof.
  unfold t_fold_lr. rewrite fold_lr_meta_spec, lr_spec_plain.
  rewrite <- inorder_leaf_inorder, map_map. reflexivity.
Qed.

(** [fold_up_meta] computes any function of the node list that [f] computes
    node by node. *)
Theorem fold_up_meta_spec {R} (f : option R -> A -> level -> option name -> option R -> res R)
    (H : list (level * option name * A) -> R) :
  (forall l r lv nm d,
     f (match l with [] => None | _ => Some (H l) end) d lv nm
       (match r with [] => None | _ => Some (H r) end) = Ok (H (l ++ (lv, nm, d) :: r))) ->
  forall t, t_fold_up_meta f t = Ok (H (inorder t)).
Proof.
  intros Hf t. induction t as [lv nm d l r Hl Hr] using tree_induction.
  simpl.
  assert (L : forall o, optP (fun t => t_fold_up_meta f t = Ok (H (inorder t))) o ->
    (match o with None => Ok None | Some t1 => do x <- t_fold_up_meta f t1; Ok (Some x) end)
    = Ok (match oinorder o with [] => None | _ => Some (H (oinorder o)) end)).
  { intros [t|] Ho; simpl in *; [|reflexivity]. rewrite Ho. simpl.
    destruct (inorder t) eqn:D; [now apply inorder_nonempty in D|reflexivity]. }
  rewrite (L l Hl), (L r Hr). simpl. apply Hf.
Qed.

End Folds.

(** [map] with a function of the data only. *)
Theorem map_spec {A B} (f : A -> level -> option name -> option (tree B) -> option (tree B) -> res B)
    (g : A -> B) :
  (forall d lv nm l r, f d lv nm l r = Ok (g d)) ->
  forall t, exists t', t_map f t = Ok t' /\
    inorder t' = map (fun '(lv, nm, d) => (lv, nm, g d)) (inorder t) /\
    skeleton t' = skeleton t.
Proof.
  intros Hf t. induction t as [lv nm d l r Hl Hr] using tree_induction.
  assert (L : forall o, optP (fun t => exists t', t_map f t = Ok t' /\
      inorder t' = map (fun '(lv, nm, d) => (lv, nm, g d)) (inorder t) /\
      skeleton t' = skeleton t) o ->
    exists o', (match o with None => Ok None | Some t1 => do x <- t_map f t1; Ok (Some x) end) = Ok o'
      /\ oinorder o' = map (fun '(lv, nm, d) => (lv, nm, g d)) (oinorder o)
      /\ option_map skeleton o' = option_map skeleton o).
  { intros [t|] Ho; simpl in *.
    - destruct Ho as (t' & -> & H1 & H2). exists (Some t'). simpl. now rewrite H1, H2.
    - exists None. auto. }
  destruct (L l Hl) as (l' & El & Il & Sl). destruct (L r Hr) as (r' & Er & Ir & Sr).
  simpl. rewrite El, Er. simpl. rewrite Hf. simpl.
  exists (Node lv nm (g d) l' r'). split; [destruct nm; reflexivity|].
  split.
  - rewrite inorder_Node, Il, Ir.
    change (match l with Some t1 => inorder t1 | None => [] end) with (oinorder l).
    change (match r with Some t1 => inorder t1 | None => [] end) with (oinorder r).
    rewrite map_app. reflexivity.
  - simpl. now rewrite Sl, Sr.
Qed.

Lemma tree_new_eq {A} lv nm (d : A) l r : tree_new lv nm d l r = Some (Node lv nm d l r).
Proof. destruct nm; reflexivity. Qed.

(** ** In-order lists determine conventional trees *)
Section Unique.
Context {A : Type}.
Notation node := (level * option name * A)%type.
Definition nlev (n : node) : level := fst (fst n).

Lemma conventional_bounds (t : tree A) : conventional t ->
  Forall (fun n => nlev n <= t_level t)%N (inorder t).
Proof.
  induction t as [lv nm d l r Hl Hr] using tree_induction.
  intros (Ll & Lr & Cl & Cr). rewrite inorder_Node. apply Forall_app. simpl t_level.
  split; [|constructor; [unfold nlev; simpl; lia|]].
  - destruct l as [t|]; simpl in *; [|constructor].
    eapply Forall_impl; [|apply Hl; exact Cl]. simpl. intros. lia.
  - destruct r as [t|]; simpl in *; [|constructor].
    eapply Forall_impl; [|apply Hr; exact Cr]. simpl. intros. lia.
Qed.

Lemma conventional_left_bounds (o : option (tree A)) lv : oconventional o -> lev_lt o lv ->
  Forall (fun n => nlev n < lv)%N (oinorder o).
Proof.
  destruct o as [t|]; simpl; [|constructor]. intros C L.
  eapply Forall_impl; [|apply conventional_bounds; exact C]. simpl. intros. lia.
Qed.

Lemma conventional_right_bounds (o : option (tree A)) lv : oconventional o -> lev_le o lv ->
  Forall (fun n => nlev n <= lv)%N (oinorder o).
Proof.
  destruct o as [t|]; simpl; [|constructor]. intros C L.
  eapply Forall_impl; [|apply conventional_bounds; exact C]. simpl. intros. lia.
Qed.

(** The leftmost maximum splits a list in only one way. *)
Lemma split_max_unique {X} (key : X -> N) (a1 a2 b1 b2 : list X) (x1 x2 : X) :
  a1 ++ x1 :: b1 = a2 ++ x2 :: b2 ->
  Forall (fun y => key y < key x1)%N a1 -> Forall (fun y => key y <= key x1)%N b1 ->
  Forall (fun y => key y < key x2)%N a2 -> Forall (fun y => key y <= key x2)%N b2 ->
  a1 = a2 /\ x1 = x2 /\ b1 = b2.
Proof.
  revert a2. induction a1 as [|y a1 IH]; intros a2 E A1 B1 A2 B2.
  - destruct a2 as [|z a2]; simpl in E.
    + inv E. auto.
    + inv E. exfalso. inv A2.
      assert (In x2 (a2 ++ x2 :: b2)) by (apply in_or_app; simpl; auto).
      rewrite Forall_forall in B1. specialize (B1 x2 H). lia.
  - destruct a2 as [|z a2]; simpl in E.
    + inv E. exfalso. inv A1.
      assert (In x1 (a1 ++ x1 :: b1)) by (apply in_or_app; simpl; auto).
      rewrite Forall_forall in B2. specialize (B2 x1 H). lia.
    + injection E as E0 E1. inversion A1 as [|? ? P1 Q1]; subst.
      inversion A2 as [|? ? P2 Q2]; subst.
      destruct (IH a2 E1 Q1 B1 Q2 B2) as (-> & -> & ->). auto.
Qed.

Theorem conventional_unique (t1 : tree A) : forall t2,
  conventional t1 -> conventional t2 -> inorder t1 = inorder t2 -> t1 = t2.
Proof.
  induction t1 as [lv nm d l r Hl Hr] using tree_induction.
  intros [lv' nm' d' l' r'] (Ll & Lr & Cl & Cr) (Ll' & Lr' & Cl' & Cr') E.
  rewrite !inorder_Node in E.
  apply (split_max_unique nlev) in E;
    unfold nlev in *; simpl fst in *;
    try (apply conventional_left_bounds; assumption);
    try (apply conventional_right_bounds; assumption).
  destruct E as (E1 & E2 & E3). inv E2. f_equal.
  - destruct l as [t|], l' as [t'|]; simpl in *; auto.
    + f_equal. auto.
    + now apply inorder_nonempty in E1.
    + symmetry in E1. now apply inorder_nonempty in E1.
  - destruct r as [t|], r' as [t'|]; simpl in *; auto.
    + f_equal. auto.
    + now apply inorder_nonempty in E3.
    + symmetry in E3. now apply inorder_nonempty in E3.
Qed.

End Unique.

(** ** good_levels *)
Section GoodLevels.
Context {A : Type}.

(** What [good_levels] accepts. *)
Fixpoint mirrored (t : tree A) : Prop :=
  match t with
  | Node lv nm d l r =>
      lev_le l lv /\ lev_lt r lv /\
      match l with None => True | Some t1 => mirrored t1 end /\
      match r with None => True | Some t2 => mirrored t2 end
  end.

Lemma good_levels_spec (t : tree A) : good_levels t = true <-> mirrored t.
Proof.
  induction t as [lv nm d l r Hl Hr] using tree_induction. simpl.
  destruct l as [t1|], r as [t2|]; simpl in *;
    rewrite ?andb_true_iff, ?negb_true_iff, ?N.ltb_ge, ?N.leb_gt, ?Hl, ?Hr; tauto.
Qed.

End GoodLevels.
