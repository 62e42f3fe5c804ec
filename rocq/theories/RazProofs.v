(** * Raz proofs, part 1: moving, editing and unfocusing. *)

From Verif Require Import Base BaseFacts Spec SpecRaz StackModel AStackModel StackProofs
  LevelTreeModel TreeCursorModel RazMetaModel RazModel TreeSpec TreeProofs CursorProofs RazView.

Section RazProofs.
Context {E M : Type} {RM : RazMeta E M}.
Notation rtree := (tree (tree_data E M)).
Notation rcursor := (cursor (tree_data E M)).
Notation atoms := (list (atom E level)).
Notation W := (@node_ok E M RM).
Notation obs := (@item_atoms E M).

(** ** The generic cursor theory at Raz trees *)
Definition branchy (lv : level) (nm : option name) (d : tree_data E M) : Prop :=
  (1 <= lv)%N /\ exists a b, d = Branch a b.
Definition branchy0 (lv : level) (nm : option name) (d : tree_data E M) : Prop :=
  (1 <= lv)%N /\ match d with Leaf _ => False | _ => True end.
Definition present (o : option rtree) : Prop := o <> None.
Definition inner (lv : level) : Prop := (1 <= lv)%N.

Notation cwf := (cwf W branchy present).
Notation corder := (@corder (tree_data E M)).
Notation cobs := (cobs obs).
Notation lf_item := (lf_item W branchy present).
Notation rf_item := (rf_item W branchy present).

Lemma not_dummy t : tree_ok t -> t_peek t <> Dummy.
Proof. intros H. apply twf_eq in H. destruct H as (H & _). intros D. rewrite D in H. exact H. Qed.

Lemma branch_meta_ok lv nm d : d <> Dummy -> exists m, branch_meta lv nm (Some d) = Ok m.
Proof. destruct d; [congruence|eexists; reflexivity|eexists; reflexivity]. Qed.

Lemma raz_reb lv nm d l r :
  branchy0 lv nm d -> otree_ok l -> present l -> otree_ok r -> present r ->
  exists d', rebuild (peek_op l) d lv nm (peek_op r) = Ok d' /\ W lv nm d' l r /\
    obs lv nm d' = obs lv nm d.
Proof.
  intros [Lv Nl] Hl Pl Hr Pr. unfold rebuild, td_update, td_rebuild.
  destruct l as [tl|]; [|elim Pl; reflexivity]. destruct r as [tr|]; [|elim Pr; reflexivity].
  destruct (branch_meta_ok lv nm (t_peek tl) (not_dummy _ Hl)) as (ml & El).
  destruct (branch_meta_ok lv nm (t_peek tr) (not_dummy _ Hr)) as (mr & Er).
  exists (Branch ml mr). split; [|split].
  - destruct d; [| |elim Nl]; cbn [peek_op option_map]; rewrite El; cbn [bind]; rewrite Er; reflexivity.
  - simpl. eauto 8.
  - destruct d; [reflexivity|reflexivity|elim Nl].
Qed.

Lemma raz_inner lv nm d l r :
  W lv nm d l r -> inner lv -> branchy lv nm d /\ present l /\ present r.
Proof.
  unfold inner. destruct d as [|a b|v]; simpl.
  - intros [].
  - intros (Lv & (tl & -> & _) & (tr & -> & _)) _. repeat split; auto; try discriminate. eauto.
  - intros (-> & _) H. lia.
Qed.

Lemma raz_weak lv nm d : branchy lv nm d -> branchy0 lv nm d.
Proof. intros [H (a & b & ->)]. split; auto. Qed.

Lemma raz_some t : present (Some t).
Proof. discriminate. Qed.

Lemma raz_inner_up lev : (1 <= lev)%N -> forall h, (lev <= h)%N -> inner h.
Proof. unfold inner. intros. lia. Qed.

Definition up_step := up_step obs W branchy branchy0 present raz_reb raz_weak raz_some.
Definition up_all_spec := up_all_spec obs W branchy branchy0 present raz_reb raz_weak raz_some.
Definition c_join_spec := c_join_spec obs W branchy branchy0 present inner raz_reb raz_inner raz_weak raz_some.
Definition down_right_cwf := down_right_cwf obs W branchy present inner raz_inner.
Definition down_left_cwf := down_left_cwf obs W branchy present inner raz_inner.

(** ** Shape of well-formed trees *)
Definition leaf_of (v : list E) : rtree := Node 0%N None (Leaf v) None None.

Lemma tree_ok_case t : tree_ok t ->
  (exists v, t = leaf_of v /\ v <> []) \/
  (exists lv nm ml mr tl tr, t = Node lv nm (Branch ml mr) (Some tl) (Some tr) /\
     (1 <= lv)%N /\ branch_meta lv nm (Some (t_peek tl)) = Ok ml /\
     branch_meta lv nm (Some (t_peek tr)) = Ok mr /\ tree_ok tl /\ tree_ok tr).
Proof.
  destruct t as [lv nm [|a b|v] l r]; simpl; intros (H & Hl & Hr).
  - elim H.
  - right. destruct H as (Lv & (tl & -> & El) & (tr & -> & Er)). do 6 eexists. eauto 8.
  - left. destruct H as (-> & -> & -> & -> & Hv). exists v. split; [reflexivity|exact Hv].
Qed.

Lemma tree_ok_leaf v : v <> [] -> tree_ok (leaf_of v).
Proof. intros H. simpl. auto 8. Qed.

Lemma tree_atoms_leaf v : tree_atoms (Some (leaf_of v)) = map Elt v.
Proof. unfold tree_atoms, leaf_of. rewrite tobs_Node. simpl. apply app_nil_r. Qed.

Lemma tree_atoms_branch lv nm (ml mr : M) (l r : option rtree) :
  tree_atoms (Some (Node lv nm (Branch ml mr) l r)) = tree_atoms l ++ Mark lv nm :: tree_atoms r.
Proof. unfold tree_atoms. rewrite tobs_Node. reflexivity. Qed.

(** First and last atom are elements. *)
Lemma tree_atoms_ends t : tree_ok t ->
  (exists e l, tree_atoms (Some t) = Elt e :: l) /\ (exists e l, tree_atoms (Some t) = l ++ [Elt e]).
Proof.
  induction t as [lv nm d l r Hl Hr] using tree_induction. intros H.
  apply tree_ok_case in H.
  destruct H as [(v & H & Hv)|(lv' & nm' & ml & mr & tl & tr & H & _ & _ & _ & Kl & Kr)]; inv H.
  - change (Node 0%N None (Leaf v) None None) with (leaf_of v). rewrite tree_atoms_leaf. split.
    + destruct v; [congruence|]. simpl. eauto.
    + destruct (list_rev_case v) as [->|(w & x & ->)]; [congruence|].
      rewrite map_app. simpl. eauto.
  - rewrite tree_atoms_branch. simpl in Hl, Hr. split.
    + destruct (Hl Kl) as ((e & x & ->) & _). simpl. eauto.
    + destruct (Hr Kr) as (_ & (e & x & ->)).
      exists e, (tree_atoms (Some tl) ++ Mark lv' nm' :: x). now rewrite <- app_assoc.
Qed.

(** ** The rightmost and leftmost leaf *)
Fixpoint rmost (t : rtree) : rtree :=
  match t with Node _ _ _ _ r => match r with None => t | Some t2 => rmost t2 end end.
Fixpoint lmost (t : rtree) : rtree :=
  match t with Node _ _ _ l _ => match l with None => t | Some t1 => lmost t1 end end.

Lemma rmost_right t t2 : t_right t = Some t2 -> rmost t = rmost t2.
Proof. destruct t as [? ? ? ? r]. simpl. now intros ->. Qed.
Lemma lmost_left t t1 : t_left t = Some t1 -> lmost t = lmost t1.
Proof. destruct t as [? ? ? l ?]. simpl. now intros ->. Qed.

Lemma rmost_leaf t : tree_ok t ->
  exists v pre, rmost t = leaf_of v /\ v <> [] /\ tree_atoms (Some t) = pre ++ map Elt v.
Proof.
  induction t as [lv nm d l r Hl Hr] using tree_induction. intros H.
  apply tree_ok_case in H.
  destruct H as [(v & H & Hv)|(lv' & nm' & ml & mr & tl & tr & H & _ & _ & _ & Kl & Kr)]; inv H.
  - exists v, []. repeat split; auto. apply tree_atoms_leaf.
  - destruct (Hr Kr) as (v & pre & Rm & Hv & Eq). exists v, (tree_atoms (Some tl) ++ Mark lv' nm' :: pre).
    repeat split; auto. rewrite tree_atoms_branch, Eq, <- app_assoc. reflexivity.
Qed.

Lemma lmost_leaf t : tree_ok t ->
  exists v post, lmost t = leaf_of v /\ v <> [] /\ tree_atoms (Some t) = map Elt v ++ post.
Proof.
  induction t as [lv nm d l r Hl Hr] using tree_induction. intros H.
  apply tree_ok_case in H.
  destruct H as [(v & H & Hv)|(lv' & nm' & ml & mr & tl & tr & H & _ & _ & _ & Kl & Kr)]; inv H.
  - exists v, []. split; [reflexivity|split; [exact Hv|]]. rewrite app_nil_r. apply tree_atoms_leaf.
  - destruct (Hl Kl) as (v & post & Lm & Hv & Eq). exists v, (post ++ Mark lv' nm' :: tree_atoms (Some tr)).
    repeat split; auto. rewrite tree_atoms_branch, Eq, <- app_assoc. reflexivity.
Qed.

(** Both loops only depend on the tree as far as what is reached is concerned. *)
Lemma down_right_all_reach (c : rcursor) t : c_tree c = Some t ->
  exists c', down_right_all c = Ok c' /\ c_tree c' = Some (rmost t) /\ r_forest c' = r_forest c.
Proof.
  intros T. unfold down_right_all.
  apply (loop_total (fun s => (exists t', c_tree s = Some t' /\ rmost t' = rmost t) /\ r_forest s = r_forest c)
           _ (fun s => ot_size (c_tree s))); [|split; eauto|lia].
  intros s ((t' & Ts & Rt) & Rs). unfold down_right, down_right_force. rewrite Ts.
  destruct (t_right t') as [t2|] eqn:R.
  - eexists. split; [reflexivity|]. simpl. split; [split; [|exact Rs]|].
    + exists t2. split; auto. now rewrite <- (rmost_right _ _ R).
    + pose proof (t_size_right t') as Z. rewrite R in Z. exact Z.
  - eexists. split; [reflexivity|]. simpl. split; [|exact Rs]. rewrite Ts, <- Rt. f_equal.
    destruct t'. simpl in *. now rewrite R.
Qed.

Lemma down_left_all_reach (c : rcursor) t : c_tree c = Some t ->
  exists c', down_left_all c = Ok c' /\ c_tree c' = Some (lmost t) /\ l_forest c' = l_forest c.
Proof.
  intros T. unfold down_left_all.
  apply (loop_total (fun s => (exists t', c_tree s = Some t' /\ lmost t' = lmost t) /\ l_forest s = l_forest c)
           _ (fun s => ot_size (c_tree s))); [|split; eauto|lia].
  intros s ((t' & Ts & Rt) & Rs). unfold down_left, down_left_force. rewrite Ts.
  destruct (t_left t') as [t2|] eqn:R.
  - eexists. split; [reflexivity|]. simpl. split; [split; [|exact Rs]|].
    + exists t2. split; auto. now rewrite <- (lmost_left _ _ R).
    + pose proof (t_size_left t') as Z. rewrite R in Z. exact Z.
  - eexists. split; [reflexivity|]. simpl. split; [|exact Rs]. rewrite Ts, <- Rt. f_equal.
    destruct t'. simpl in *. now rewrite R.
Qed.

Lemma tree_ok_right t t2 : tree_ok t -> t_right t = Some t2 -> inner (t_level t) /\ tree_ok t2.
Proof.
  intros H R. apply tree_ok_case in H.
  destruct H as [(v & -> & Hv)|(lv' & nm' & ml & mr & tl & tr & -> & ? & _ & _ & Kl & Kr)]; simpl in *; inv R.
  auto.
Qed.
Lemma tree_ok_left t t1 : tree_ok t -> t_left t = Some t1 -> inner (t_level t) /\ tree_ok t1.
Proof.
  intros H R. apply tree_ok_case in H.
  destruct H as [(v & -> & Hv)|(lv' & nm' & ml & mr & tl & tr & -> & ? & _ & _ & Kl & Kr)]; simpl in *; inv R.
  auto.
Qed.

(** With nothing on the other side, walking to the end of a subtree is harmless. *)
Lemma down_right_all_spec (c : rcursor) : cwf c -> r_forest c = [] ->
  exists c' v, down_right_all c = Ok c' /\ cwf c' /\ r_forest c' = [] /\
    c_tree c' = Some (leaf_of v) /\ v <> [] /\ cobs c' = cobs c /\ (corder c -> corder c').
Proof.
  intros C R.
  assert (exists c', down_right_all c = Ok c' /\ cwf c' /\ r_forest c' = [] /\
    (exists t, c_tree c' = Some t /\ t_right t = None) /\ cobs c' = cobs c /\ (corder c -> corder c')) as H.
  { unfold down_right_all.
    apply (loop_total (fun s => cwf s /\ r_forest s = [] /\ cobs s = cobs c /\ (corder c -> corder s))
           _ (fun s => ot_size (c_tree s))); [|auto|lia].
    intros s (Cs & Rs & Os & Ks).
    destruct (c_tree s) as [t|] eqn:T; [|elim (cwf_allowed _ _ _ _ Cs); exact T].
    destruct (t_right t) as [t2|] eqn:Rt.
    - assert (Ht : tree_ok t) by (pose proof (cwf_tree _ _ _ _ Cs) as Z; rewrite T in Z; exact Z).
      destruct (tree_ok_right _ _ Ht Rt) as (In & Ht2).
      destruct (down_right_cwf s t ForceNo Cs T) as (D & Cs' & Os' & Ks');
        [discriminate|intros _; congruence|exact In|rewrite Rs; exact I|].
      unfold down_right. rewrite D. eexists. split; [reflexivity|]. cbv beta iota.
      split; [split; [exact Cs'|split; [exact Rs|split; [congruence|auto]]]|].
      simpl. pose proof (t_size_right t) as Z. exact Z.
    - unfold down_right, down_right_force. rewrite T, Rt.
      eexists. split; [reflexivity|]. simpl. split; [exact Cs|]. split; [exact Rs|]. split; [eauto|]. auto. }
  destruct H as (c' & D & C' & R' & (t & T & Rt) & O' & K').
  assert (Ht : tree_ok t) by (pose proof (cwf_tree _ _ _ _ C') as Z; rewrite T in Z; exact Z).
  apply tree_ok_case in Ht.
  destruct Ht as [(v & -> & Hv)|(? & ? & ? & ? & ? & ? & -> & _)]; [|discriminate].
  exists c', v. auto 8.
Qed.

Lemma down_left_all_spec (c : rcursor) : cwf c -> l_forest c = [] ->
  exists c' v, down_left_all c = Ok c' /\ cwf c' /\ l_forest c' = [] /\
    c_tree c' = Some (leaf_of v) /\ v <> [] /\ cobs c' = cobs c /\ (corder c -> corder c').
Proof.
  intros C R.
  assert (exists c', down_left_all c = Ok c' /\ cwf c' /\ l_forest c' = [] /\
    (exists t, c_tree c' = Some t /\ t_left t = None) /\ cobs c' = cobs c /\ (corder c -> corder c')) as H.
  { unfold down_left_all.
    apply (loop_total (fun s => cwf s /\ l_forest s = [] /\ cobs s = cobs c /\ (corder c -> corder s))
           _ (fun s => ot_size (c_tree s))); [|auto|lia].
    intros s (Cs & Rs & Os & Ks).
    destruct (c_tree s) as [t|] eqn:T; [|elim (cwf_allowed _ _ _ _ Cs); exact T].
    destruct (t_left t) as [t2|] eqn:Rt.
    - assert (Ht : tree_ok t) by (pose proof (cwf_tree _ _ _ _ Cs) as Z; rewrite T in Z; exact Z).
      destruct (tree_ok_left _ _ Ht Rt) as (In & Ht2).
      destruct (down_left_cwf s t ForceNo Cs T) as (D & Cs' & Os' & Ks');
        [discriminate|intros _; congruence|exact In|rewrite Rs; exact I|].
      unfold down_left. rewrite D. eexists. split; [reflexivity|]. cbv beta iota.
      split; [split; [exact Cs'|split; [exact Rs|split; [congruence|auto]]]|].
      simpl. pose proof (t_size_left t) as Z. exact Z.
    - unfold down_left, down_left_force. rewrite T, Rt.
      eexists. split; [reflexivity|]. simpl. split; [exact Cs|]. split; [exact Rs|]. split; [eauto|]. auto. }
  destruct H as (c' & D & C' & R' & (t & T & Rt) & O' & K').
  assert (Ht : tree_ok t) by (pose proof (cwf_tree _ _ _ _ C') as Z; rewrite T in Z; exact Z).
  apply tree_ok_case in Ht.
  destruct Ht as [(v & -> & Hv)|(? & ? & ? & ? & ? & ? & -> & _)]; [|discriminate].
  exists c', v. auto 8.
Qed.

(** ** One-sided cursors of a Raz.

    Their current tree is stale (its elements live in the stack); only the forest
    counts. *)
Definition stale_ok (o : option rtree) : Prop :=
  match o with None => True | Some t => t_peek t <> Dummy end.

Record left_ok (c : rcursor) : Prop := {
  lo_r : r_forest c = [];
  lo_l : Forall lf_item (l_forest c);
  lo_t : stale_ok (c_tree c)
}.
Record right_ok (c : rcursor) : Prop := {
  ro_l : l_forest c = [];
  ro_r : Forall rf_item (r_forest c);
  ro_t : stale_ok (c_tree c)
}.
Definition left_atoms (c : rcursor) : atoms := rev (lf_obs obs (l_forest c)).
Definition right_atoms (c : rcursor) : atoms := rf_obs obs (r_forest c).

Lemma branchy_obs lv nm d : branchy lv nm d -> obs lv nm d = [Mark lv nm].
Proof. intros [_ (a & b & ->)]. reflexivity. Qed.

Lemma stale_peek lv nm o : stale_ok o -> exists m, branch_meta lv nm (peek_op o) = Ok m.
Proof.
  destruct o as [t|]; simpl; [apply branch_meta_ok|]. eexists. reflexivity.
Qed.

(** [up] then whatever replaces the stale right side: the parent's left branch,
    level and name survive. *)
Lemma left_up c : left_ok c ->
  match l_forest c with
  | [] => up c = Ok (UpFail, c)
  | (d, ut) :: lf =>
      exists c' t', up c = Ok (UpLeft, c') /\ left_ok c' /\ l_forest c' = lf /\
        c_tree c' = Some t' /\ t_level t' = t_level ut /\ t_name t' = t_name ut /\
        t_left t' = t_left ut
  end.
Proof.
  intros [R L T]. destruct (l_forest c) as [|[d ut] lf] eqn:Lf.
  - now apply up_fail.
  - inversion L as [|? ? [(Lv & a & b & D) [Hw Hp]] L']; subst. simpl in Lv, D, Hw, Hp.
    unfold up, up_to_left. rewrite Lf, R.
    destruct (dirty c).
    + destruct (t_left ut) as [tl|] eqn:Tl; [|elim Hp; reflexivity].
      destruct (branch_meta_ok (t_level ut) (t_name ut) (t_peek tl) (not_dummy _ Hw)) as (ml & El).
      destruct (stale_peek (t_level ut) (t_name ut) (c_tree c) T) as (mr & Er).
      assert (RB : rebuild (peek_op (Some tl)) (t_peek ut) (t_level ut) (t_name ut) (peek_op (c_tree c))
                   = Ok (Branch ml mr)).
      { unfold rebuild, td_update, td_rebuild. rewrite D. cbn [peek_op option_map] in *.
        rewrite El. cbn [bind]. rewrite Er. reflexivity. }
      rewrite RB. simpl. rewrite tree_new_eq. do 2 eexists. split; [reflexivity|].
      split; [|simpl; auto 6]. constructor; simpl; auto. discriminate.
    + do 2 eexists. split; [reflexivity|]. split; [|simpl; auto 6].
      constructor; simpl; auto. rewrite D. discriminate.
Qed.

Lemma right_up c : right_ok c ->
  match r_forest c with
  | [] => up c = Ok (UpFail, c)
  | (d, ut) :: rf =>
      exists c' t', up c = Ok (UpRight, c') /\ right_ok c' /\ r_forest c' = rf /\
        c_tree c' = Some t' /\ t_level t' = t_level ut /\ t_name t' = t_name ut /\
        t_right t' = t_right ut
  end.
Proof.
  intros [R L T]. destruct (r_forest c) as [|[d ut] rf] eqn:Lf.
  - now apply up_fail.
  - inversion L as [|? ? [(Lv & a & b & D) [Hw Hp]] L']; subst. simpl in Lv, D, Hw, Hp.
    unfold up, up_to_left. rewrite Lf, R.
    destruct (dirty c).
    + destruct (t_right ut) as [tl|] eqn:Tl; [|elim Hp; reflexivity].
      destruct (branch_meta_ok (t_level ut) (t_name ut) (t_peek tl) (not_dummy _ Hw)) as (ml & El).
      destruct (stale_peek (t_level ut) (t_name ut) (c_tree c) T) as (mr & Er).
      assert (RB : rebuild (peek_op (c_tree c)) (t_peek ut) (t_level ut) (t_name ut) (peek_op (Some tl))
                   = Ok (Branch mr ml)).
      { unfold rebuild, td_update, td_rebuild. rewrite D. cbn [peek_op option_map] in *.
        rewrite Er. cbn [bind]. rewrite El. reflexivity. }
      rewrite RB. simpl. rewrite tree_new_eq. do 2 eexists. split; [reflexivity|].
      split; [|simpl; auto 6]. constructor; simpl; auto. discriminate.
    + do 2 eexists. split; [reflexivity|]. split; [|simpl; auto 6].
      constructor; simpl; auto. rewrite D. discriminate.
Qed.

(** Discarding down gives a proper cursor again. *)
Lemma left_discard c d ut lf : left_ok c -> l_forest c = (d, ut) :: lf ->
  exists tl, t_left ut = Some tl /\ tree_ok tl /\
  let c1 := Cursor true lf (Some tl) [] in
  cwf c1 /\
  left_atoms c = Mark (t_level ut) (t_name ut) :: rev (cobs c1) /\
  (lf_ord (l_forest c) -> corder c1 /\ (t_level tl < t_level ut)%N).
Proof.
  intros [R L T] Lf. rewrite Lf in L.
  inversion L as [|? ? [Br [Hw Hp]] L']; subst. simpl in Br, Hw, Hp.
  destruct (t_left ut) as [tl|] eqn:Tl; [|elim Hp; reflexivity].
  exists tl. split; [reflexivity|]. split; [exact Hw|]. split; [|split].
  - constructor; simpl; auto. constructor.
  - unfold left_atoms. rewrite Lf. cbn [lf_obs]. rewrite (branchy_obs _ _ _ Br), Tl.
    unfold CursorProofs.cobs. simpl. rewrite app_nil_r, !app_assoc, rev_app_distr. reflexivity.
  - rewrite Lf. simpl. rewrite Tl. intros (Q1 & Q2 & Q3 & Q4). simpl in Q1, Q2. split; [|exact Q2].
    constructor; simpl; auto. destruct lf as [|[? ?] ?]; simpl in *; auto. lia.
Qed.

Lemma right_discard c d ut rf : right_ok c -> r_forest c = (d, ut) :: rf ->
  exists tr, t_right ut = Some tr /\ tree_ok tr /\
  let c1 := Cursor true [] (Some tr) rf in
  cwf c1 /\
  right_atoms c = Mark (t_level ut) (t_name ut) :: cobs c1 /\
  (rf_ord (r_forest c) -> corder c1 /\ (t_level tr <= t_level ut)%N).
Proof.
  intros [R L T] Lf. rewrite Lf in L.
  inversion L as [|? ? [Br [Hw Hp]] L']; subst. simpl in Br, Hw, Hp.
  destruct (t_right ut) as [tl|] eqn:Tl; [|elim Hp; reflexivity].
  exists tl. split; [reflexivity|]. split; [exact Hw|]. split; [|split].
  - constructor; simpl; auto. constructor.
  - unfold right_atoms. rewrite Lf. cbn [rf_obs]. rewrite (branchy_obs _ _ _ Br), Tl.
    unfold CursorProofs.cobs. simpl. reflexivity.
  - rewrite Lf. simpl. rewrite Tl. intros (Q1 & Q2 & Q3 & Q4). simpl in Q1, Q2. split; [|exact Q2].
    constructor; simpl; auto. destruct rf as [|[? ?] ?]; simpl in *; auto. lia.
Qed.

(** ** Simulation *)
(** Stack atoms as they will appear in the tree. *)
Definition ren (a : atom E level) : atom E level :=
  match a with Elt e => Elt e | Mark m n => Mark m (point_name n) end.

Definition marks_pos (l : atoms) : Prop := Forall (fun p => 1 <= fst p)%N (marks l).

Definition stack_ok (s : astack E level) : Prop := as_inv s /\ marks_pos (as_abs s).

Record sim (z : raz E M) (s : sraz E) : Prop := {
  sim_lc : left_ok (z_l_forest z);
  sim_rc : right_ok (z_r_forest z);
  sim_ls : stack_ok (z_l_stack z);
  sim_rs : stack_ok (z_r_stack z);
  sim_left : s_left s = map ren (as_abs (z_l_stack z)) ++ left_atoms (z_l_forest z);
  sim_right : s_right s = map ren (as_abs (z_r_stack z)) ++ right_atoms (z_r_forest z);
  sim_ln : s_lnew s = length (marks (as_abs (z_l_stack z)));
  sim_rn : s_rnew s = length (marks (as_abs (z_r_stack z)))
}.
(** Additionally, the forests are in level order. *)
Definition ordered (z : raz E M) : Prop :=
  lf_ord (l_forest (z_l_forest z)) /\ rf_ord (r_forest (z_r_forest z)).

Lemma sim_new : sim raz_new sz_new /\ ordered raz_new.
Proof.
  split; [|split; exact I].
  constructor; simpl; try (constructor; simpl; auto; fail); try reflexivity;
    split; try exact I; constructor.
Qed.

Lemma left_atoms_shape c : left_ok c ->
  left_atoms c = [] \/ exists m n l, left_atoms c = Mark m n :: l.
Proof.
  intros H. destruct (l_forest c) as [|[d ut] lf] eqn:L.
  - left. unfold left_atoms. now rewrite L.
  - right. destruct (left_discard c d ut lf H L) as (tl & _ & _ & _ & -> & _). eauto.
Qed.
Lemma right_atoms_shape c : right_ok c ->
  right_atoms c = [] \/ exists m n l, right_atoms c = Mark m n :: l.
Proof.
  intros H. destruct (r_forest c) as [|[d ut] rf] eqn:L.
  - left. unfold right_atoms. now rewrite L.
  - right. destruct (right_discard c d ut rf H L) as (tl & _ & _ & _ & -> & _). eauto.
Qed.

Lemma run_ren l : run (map ren l) = run l.
Proof. induction l as [|[e|m n] l IH]; simpl; congruence. Qed.

Lemma run_app_mark (l r : atoms) : (r = [] \/ exists m n x, r = Mark m n :: x) -> run (l ++ r) = run l.
Proof.
  intros H. induction l as [|[e|m n] l IH]; simpl; auto; [|congruence].
  destruct H as [->|(m & n & x & ->)]; reflexivity.
Qed.

Lemma push_left_sim z s e : sim z s ->
  fst (push_left z e) = fst (sz_push_left s e) /\
  sim (snd (push_left z e)) (snd (sz_push_left s e)) /\
  (ordered z -> ordered (snd (push_left z e))).
Proof.
  intros H. split; [|split].
  - simpl. unfold as_active_len. simpl. rewrite app_length. simpl.
    rewrite (sim_left _ _ H), run_app_mark by (apply left_atoms_shape, H).
    rewrite run_ren, run_as_abs, rev_length. lia.
  - destruct H as [A B [C1 C2] D F G I J]. constructor; simpl; auto.
    + split; [exact C1|]. rewrite as_push_abs. exact C2.
    + rewrite as_push_abs. simpl. now rewrite F.
    + rewrite as_push_abs. exact I.
  - auto.
Qed.

Lemma push_right_sim z s e : sim z s ->
  fst (push_right z e) = fst (sz_push_right s e) /\
  sim (snd (push_right z e)) (snd (sz_push_right s e)) /\
  (ordered z -> ordered (snd (push_right z e))).
Proof.
  intros H. split; [|split].
  - simpl. unfold as_active_len. simpl. rewrite app_length. simpl.
    rewrite (sim_right _ _ H), run_app_mark by (apply right_atoms_shape, H).
    rewrite run_ren, run_as_abs, rev_length. lia.
  - destruct H as [A B C [D1 D2] F G I J]. constructor; simpl; auto.
    + split; [exact D1|]. rewrite as_push_abs. exact D2.
    + rewrite as_push_abs. simpl. now rewrite G.
    + rewrite as_push_abs. exact J.
  - auto.
Qed.

(** Archiving a stack under other atoms. *)
Lemma sp_archive_app (l r : atoms) nm m : (r = [] \/ exists m n x, r = Mark m n :: x) ->
  sp_archive (map ren l ++ r) (point_name nm) m =
  (fst (sp_archive l nm m), map ren (snd (sp_archive l nm m)) ++ r).
Proof.
  intros H. destruct l as [|[e|m' n'] l]; simpl; auto.
  destruct H as [->|(m0 & n0 & x & ->)]; reflexivity.
Qed.

Lemma archive_left_sim z s lev nm : (1 <= lev)%N -> sim z s ->
  sim (archive_left z lev nm) (sz_archive_left s lev nm) /\
  (ordered z -> ordered (archive_left z lev nm)).
Proof.
  intros Lv H. split; [|auto].
  destruct (as_archive_spec (z_l_stack z) nm lev) as (B & A & I).
  pose proof (left_atoms_shape _ (sim_lc _ _ H)) as Sh.
  destruct H as [H1 H2 [H3 H3'] H4 H5 H6 H7 H8].
  unfold sz_archive_left. rewrite H5, sp_archive_app by exact Sh.
  unfold archive_left. destruct (as_archive (z_l_stack z) nm lev) as [b st]. simpl in *.
  constructor; simpl; auto.
  - split; [auto|]. unfold marks_pos. rewrite A.
    destruct (as_abs (z_l_stack z)) as [|[e|m' n'] l]; simpl in *; auto. 
  - now rewrite A.
  - rewrite A, H7. destruct (as_abs (z_l_stack z)) as [|[e|m' n'] l]; simpl; auto.
Qed.

Lemma archive_right_sim z s lev nm : (1 <= lev)%N -> sim z s ->
  sim (archive_right z lev nm) (sz_archive_right s lev nm) /\
  (ordered z -> ordered (archive_right z lev nm)).
Proof.
  intros Lv H. split; [|auto].
  destruct (as_archive_spec (z_r_stack z) nm lev) as (B & A & I).
  pose proof (right_atoms_shape _ (sim_rc _ _ H)) as Sh.
  destruct H as [H1 H2 H3 [H4 H4'] H5 H6 H7 H8].
  unfold sz_archive_right. rewrite H6, sp_archive_app by exact Sh.
  unfold archive_right. destruct (as_archive (z_r_stack z) nm lev) as [b st]. simpl in *.
  constructor; simpl; auto.
  - split; [auto|]. unfold marks_pos. rewrite A.
    destruct (as_abs (z_r_stack z)) as [|[e|m' n'] l]; simpl in *; auto. 
  - now rewrite A.
  - rewrite A, H8. destruct (as_abs (z_r_stack z)) as [|[e|m' n'] l]; simpl; auto.
Qed.

(** Shape of the atoms of an archive stack: a mark is followed by an element. *)
Lemma stabs_shape (o : stack (level * list E)) : stne o ->
  stabs o = [] \/ exists m n e l, stabs o = Mark m n :: Elt e :: l.
Proof.
  destruct o as [[nm [m v] n]|]; simpl; [|auto]. intros [Hv _]. right.
  destruct (list_rev_case v) as [->|(w & x & ->)]; [congruence|].
  rewrite vatoms_snoc. simpl. eauto 6.
Qed.

Lemma as_abs_shape (s : astack E level) : as_inv s ->
  as_abs s = [] \/ (exists e l, as_abs s = Elt e :: l) \/ exists m n e l, as_abs s = Mark m n :: Elt e :: l.
Proof.
  intros I. unfold as_abs. destruct (list_rev_case (current s)) as [->|(w & x & ->)].
  - simpl. destruct (stabs_shape _ I) as [H|H]; auto.
  - rewrite vatoms_snoc. simpl. eauto.
Qed.

(** Popping within a non-empty stack. *)
Lemma pop_in_stack st (r : atoms) : stack_ok st -> as_is_empty st = false ->
  exists e st', as_pop st = Ok (Some e, st') /\ stack_ok st' /\
    sp_pop (map ren (as_abs st) ++ r) = (Some e, map ren (as_abs st') ++ r) /\
    length (marks (as_abs st')) =
      (if is_mark (map ren (as_abs st) ++ r) then pred (length (marks (as_abs st)))
       else length (marks (as_abs st))).
Proof.
  intros [I P] Ne. destruct (as_pop_spec st I) as (st' & R & A & I').
  rewrite as_is_empty_abs in Ne. unfold stack_ok, marks_pos in *.
  destruct (as_abs_shape st I) as [H|[(e & l & H)|(m & n & e & l & H)]]; rewrite H in *; simpl in *.
  - discriminate.
  - exists e, st'. rewrite A. auto 8.
  - exists e, st'. rewrite A. inversion P; subst. auto 8.
Qed.

Lemma cobs_leaf_left c v : r_forest c = [] -> c_tree c = Some (leaf_of v) ->
  cobs c = lf_obs obs (l_forest c) ++ map Elt v.
Proof.
  intros R T. unfold CursorProofs.cobs. rewrite R, T. simpl. rewrite app_nil_r.
  f_equal. apply tree_atoms_leaf.
Qed.
Lemma cobs_leaf_right c v : l_forest c = [] -> c_tree c = Some (leaf_of v) ->
  cobs c = map Elt v ++ rf_obs obs (r_forest c).
Proof.
  intros R T. unfold CursorProofs.cobs. rewrite R, T. simpl.
  f_equal. apply tree_atoms_leaf.
Qed.

Lemma cwf_left_ok c t : cwf c -> r_forest c = [] -> c_tree c = Some t -> left_ok c.
Proof.
  intros [A B C D F] R T. constructor; auto. rewrite T in *. simpl in *. now apply not_dummy.
Qed.
Lemma cwf_right_ok c t : cwf c -> l_forest c = [] -> c_tree c = Some t -> right_ok c.
Proof.
  intros [A B C D F] R T. constructor; auto. rewrite T in *. simpl in *. now apply not_dummy.
Qed.

Lemma as_new_of_empty (s : astack E level) : as_is_empty s = true -> s = as_new.
Proof.
  unfold as_is_empty. destruct s as [[|e v] [h|]]; simpl; try discriminate. reflexivity.
Qed.

Lemma pop_left_sim z s : sim z s ->
  exists z', pop_left z = Ok (fst (sz_pop_left s), z') /\
    sim z' (snd (sz_pop_left s)) /\ (ordered z -> ordered z').
Proof.
  intros H. unfold pop_left, sz_pop_left.
  destruct (as_is_empty (z_l_stack z)) eqn:Em.
  - apply as_new_of_empty in Em.
    pose proof (left_up _ (sim_lc _ _ H)) as U.
    destruct H as [H1 H2 H3 H4 H5 H6 H7 H8]. rewrite Em in *. simpl in H5, H7.
    destruct (l_forest (z_l_forest z)) as [|[d ut] lf] eqn:L.
    + rewrite U. simpl.
      assert (LA : left_atoms (z_l_forest z) = []) by (unfold left_atoms; now rewrite L).
      rewrite H5, LA. simpl. eexists. split; [reflexivity|]. split.
      * constructor; simpl; auto.
      * intros [O1 O2]. split; simpl; auto.
    + destruct U as (c' & t' & U & K' & Lf' & T' & Lv & Nm & Tl').
      rewrite U. simpl.
      destruct (left_discard _ d ut lf H1 L) as (tl & Tl & Ktl & C1 & LA & Ord).
      unfold down_left_force. rewrite T', Tl', Tl. cbv beta iota zeta.
      assert (Ec : Cursor true (l_forest c') (Some tl) (r_forest c') = Cursor true lf (Some tl) []).
      { rewrite Lf', (lo_r _ K'). reflexivity. }
      rewrite Ec.
      destruct (down_right_all_spec _ C1 eq_refl) as (c2 & v & D & C2 & R2 & T2 & Hv & O2 & Ord2).
      rewrite D. simpl bind. unfold c_peek. rewrite T2. cbn [peek_op option_map t_peek leaf_of].
      destruct (list_rev_case v) as [->|(w & x & ->)]; [congruence|].
      assert (P : as_pop (as_extend (@as_new E level) (w ++ [x])) = Ok (Some x, AStack w stack_new)).
      { unfold as_pop, as_extend, as_is_empty, as_retrieve. simpl current. simpl app.
        destruct (w ++ [x]) as [|y ys] eqn:Dw; [now apply app_eq_nil in Dw|]. rewrite <- Dw.
        simpl. rewrite vec_pop_snoc. reflexivity. }
      rewrite P. simpl bind.
      rewrite H5, LA, <- O2, (cobs_leaf_left c2 _ R2 T2).
      rewrite map_app, !rev_app_distr. simpl. eexists. split; [reflexivity|]. split.
      * constructor; simpl; auto.
        -- eapply cwf_left_ok; eauto.
        -- split; [exact I|]. unfold marks_pos, as_abs. simpl. rewrite app_nil_r, vatoms_eq, marks_map_Elt. constructor.
        -- unfold as_abs. simpl. rewrite app_nil_r, vatoms_eq, map_map. simpl.
           rewrite <- map_rev. reflexivity.
        -- rewrite H7. unfold as_abs. simpl. rewrite app_nil_r, vatoms_eq, marks_map_Elt. reflexivity.
      * intros [Q1 Q2]. split; simpl; auto. rewrite L in Q1. rewrite L in Ord.
        apply Ord2, Ord. exact Q1.
  - destruct (pop_in_stack _ (left_atoms (z_l_forest z)) (sim_ls _ _ H) Em) as (e & st & P & K & SP & N).
    destruct H as [H1 H2 H3 H4 H5 H6 H7 H8].
    rewrite P, H5, SP. simpl. eexists. split; [reflexivity|]. split.
    + constructor; simpl; auto. rewrite N, H7. reflexivity.
    + auto.
Qed.

Lemma pop_right_sim z s : sim z s ->
  exists z', pop_right z = Ok (fst (sz_pop_right s), z') /\
    sim z' (snd (sz_pop_right s)) /\ (ordered z -> ordered z').
Proof.
  intros H. unfold pop_right, sz_pop_right.
  destruct (as_is_empty (z_r_stack z)) eqn:Em.
  - apply as_new_of_empty in Em.
    pose proof (right_up _ (sim_rc _ _ H)) as U.
    destruct H as [H1 H2 H3 H4 H5 H6 H7 H8]. rewrite Em in *. simpl in H6, H8.
    destruct (r_forest (z_r_forest z)) as [|[d ut] rf] eqn:L.
    + rewrite U. simpl.
      assert (LA : right_atoms (z_r_forest z) = []) by (unfold right_atoms; now rewrite L).
      rewrite H6, LA. simpl. eexists. split; [reflexivity|]. split.
      * constructor; simpl; auto.
      * intros [O1 O2]. split; simpl; auto.
    + destruct U as (c' & t' & U & K' & Lf' & T' & Lv & Nm & Tl').
      rewrite U. simpl.
      destruct (right_discard _ d ut rf H2 L) as (tl & Tl & Ktl & C1 & LA & Ord).
      unfold down_right_force. rewrite T', Tl', Tl. cbv beta iota zeta.
      assert (Ec : Cursor true (l_forest c') (Some tl) (r_forest c') = Cursor true [] (Some tl) rf).
      { rewrite Lf', (ro_l _ K'). reflexivity. }
      rewrite Ec.
      destruct (down_left_all_spec _ C1 eq_refl) as (c2 & v & D & C2 & R2 & T2 & Hv & O2 & Ord2).
      rewrite D. simpl bind. unfold c_peek. rewrite T2. cbn [peek_op option_map t_peek leaf_of].
      destruct v as [|x w]; [congruence|].
      assert (P : as_pop (as_extend_rev (@as_new E level) (x :: w)) = Ok (Some x, AStack (rev w) stack_new)).
      { unfold as_pop, as_extend_rev, as_is_empty, as_retrieve. simpl current. simpl app. simpl rev.
        destruct (rev w ++ [x]) as [|y ys] eqn:Dw; [now apply app_eq_nil in Dw|]. rewrite <- Dw.
        simpl. rewrite vec_pop_snoc. reflexivity. }
      rewrite P. simpl bind.
      rewrite H6, LA, <- O2, (cobs_leaf_right c2 _ R2 T2).
      simpl. eexists. split; [reflexivity|]. split.
      * constructor; simpl; auto.
        -- eapply cwf_right_ok; eauto.
        -- split; [exact I|]. unfold marks_pos, as_abs. simpl. rewrite app_nil_r, vatoms_eq, marks_map_Elt. constructor.
        -- unfold as_abs. simpl. rewrite app_nil_r, vatoms_eq, map_map, rev_involutive. reflexivity.
        -- rewrite H8. unfold as_abs. simpl. rewrite app_nil_r, vatoms_eq, marks_map_Elt. reflexivity.
      * intros [Q1 Q2]. split; simpl; auto. rewrite L in Q2. rewrite L in Ord.
        apply Ord2, Ord. exact Q2.
  - destruct (pop_in_stack _ (right_atoms (z_r_forest z)) (sim_rs _ _ H) Em) as (e & st & P & K & SP & N).
    destruct H as [H1 H2 H3 H4 H5 H6 H7 H8].
    rewrite P, H6, SP. simpl. eexists. split; [reflexivity|]. split.
    + constructor; simpl; auto. rewrite N, H8. reflexivity.
    + auto.
Qed.

Lemma peek_in_stack st (r : atoms) : stack_ok st -> as_is_empty st = false ->
  as_peek st = Ok (sp_peek (map ren (as_abs st) ++ r)).
Proof.
  intros [I P] Ne. rewrite as_peek_spec by exact I. f_equal. unfold sp_peek.
  rewrite as_is_empty_abs in Ne.
  destruct (as_abs_shape st I) as [H|[(e & l & H)|(m & n & e & l & H)]]; rewrite H in *; simpl in *.
  - discriminate.
  - reflexivity.
  - reflexivity.
Qed.

Lemma peek_left_sim z s : sim z s -> peek_left z = Ok (sz_peek_left s).
Proof.
  intros H. unfold peek_left, sz_peek_left.
  destruct (as_is_empty (z_l_stack z)) eqn:Em.
  - apply as_new_of_empty in Em.
    pose proof (left_up _ (sim_lc _ _ H)) as U.
    destruct H as [H1 H2 H3 H4 H5 H6 H7 H8]. rewrite Em in *. simpl in H5, H7.
    destruct (l_forest (z_l_forest z)) as [|[d ut] lf] eqn:L.
    + rewrite U. simpl.
      assert (LA : left_atoms (z_l_forest z) = []) by (unfold left_atoms; now rewrite L).
      now rewrite H5, LA.
    + destruct U as (c' & t' & U & K' & Lf' & T' & Lv & Nm & Tl').
      rewrite U. simpl.
      destruct (left_discard _ d ut lf H1 L) as (tl & Tl & Ktl & C1 & LA & Ord).
      unfold down_left, down_left_force. rewrite T', Tl', Tl. cbv beta iota zeta.
      edestruct (down_right_all_reach (Cursor false (l_forest c') (Some tl) ((dirty c', t') :: r_forest c')))
        as (c2 & D & T2 & _); [reflexivity|].
      rewrite D. simpl bind. unfold c_peek. rewrite T2.
      destruct (rmost_leaf tl Ktl) as (v & pre & Rm & Hv & At). rewrite Rm. simpl.
      rewrite H5, LA. unfold CursorProofs.cobs. simpl. rewrite app_nil_r.
      unfold tree_atoms in At. rewrite At.
      destruct (list_rev_case v) as [->|(w & x & ->)]; [congruence|].
      rewrite vec_last_snoc, map_app, !rev_app_distr. reflexivity.
  - rewrite (sim_left _ _ H). apply peek_in_stack; [apply H|exact Em].
Qed.

Lemma peek_right_sim z s : sim z s -> peek_right z = Ok (sz_peek_right s).
Proof.
  intros H. unfold peek_right, sz_peek_right.
  destruct (as_is_empty (z_r_stack z)) eqn:Em.
  - apply as_new_of_empty in Em.
    pose proof (right_up _ (sim_rc _ _ H)) as U.
    destruct H as [H1 H2 H3 H4 H5 H6 H7 H8]. rewrite Em in *. simpl in H6, H8.
    destruct (r_forest (z_r_forest z)) as [|[d ut] rf] eqn:L.
    + rewrite U. simpl.
      assert (LA : right_atoms (z_r_forest z) = []) by (unfold right_atoms; now rewrite L).
      now rewrite H6, LA.
    + destruct U as (c' & t' & U & K' & Lf' & T' & Lv & Nm & Tl').
      rewrite U. simpl.
      destruct (right_discard _ d ut rf H2 L) as (tl & Tl & Ktl & C1 & LA & Ord).
      unfold down_right, down_right_force. rewrite T', Tl', Tl. cbv beta iota zeta.
      edestruct (down_left_all_reach (Cursor false ((dirty c', t') :: l_forest c') (Some tl) (r_forest c')))
        as (c2 & D & T2 & _); [reflexivity|].
      rewrite D. simpl bind. unfold c_peek. rewrite T2.
      destruct (lmost_leaf tl Ktl) as (v & post & Rm & Hv & At). rewrite Rm. simpl.
      rewrite H6, LA. unfold CursorProofs.cobs. simpl.
      unfold tree_atoms in At. rewrite At.
      destruct v; [congruence|]. reflexivity.
  - rewrite (sim_right _ _ H). apply peek_in_stack; [apply H|exact Em].
Qed.

End RazProofs.
