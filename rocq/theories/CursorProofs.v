(** * Proofs about the tree cursor, generic in the kind of tree.

    The section is parameterised by what is observed at a node ([obs]), by the
    node-local well-formedness [W], and by when a node can be rebuilt. It is
    instantiated for plain trees (everything observed, nothing required) and for
    the trees of the Raz. *)

From Verif Require Import Base BaseFacts LevelTreeModel TreeCursorModel TreeSpec TreeProofs.

Definition hd_le {A} (lv : level) (f : list (bool * tree A)) : Prop :=
  match f with [] => True | (_, t) :: _ => (lv <= t_level t)%N end.
Definition hd_lt {A} (lv : level) (f : list (bool * tree A)) : Prop :=
  match f with [] => True | (_, t) :: _ => (lv < t_level t)%N end.

Section Cursor.
Context {A X : Type} {TU : TreeUpdate A}.
Variable obs : level -> option name -> A -> list X.
Variable W : level -> option name -> A -> option (tree A) -> option (tree A) -> Prop.
Variable Rb Rb0 : level -> option name -> A -> Prop.
Variable allowed : option (tree A) -> Prop.
Variable inner : level -> Prop.

Fixpoint twf (t : tree A) : Prop :=
  match t with
  | Node lv nm d l r =>
      W lv nm d l r /\
      match l with None => True | Some t1 => twf t1 end /\
      match r with None => True | Some t2 => twf t2 end
  end.
Definition otwf (o : option (tree A)) : Prop := match o with None => True | Some t => twf t end.

Hypothesis H_reb : forall lv nm d l r,
  Rb0 lv nm d -> otwf l -> allowed l -> otwf r -> allowed r ->
  exists d', rebuild (peek_op l) d lv nm (peek_op r) = Ok d' /\ W lv nm d' l r /\
    obs lv nm d' = obs lv nm d.
Hypothesis H_inner : forall lv nm d l r,
  W lv nm d l r -> inner lv -> Rb lv nm d /\ allowed l /\ allowed r.
Hypothesis H_weak : forall lv nm d, Rb lv nm d -> Rb0 lv nm d.
Hypothesis H_some : forall t, allowed (Some t).

Definition node_obs (n : level * option name * A) : list X :=
  let '(lv, nm, d) := n in obs lv nm d.
Definition tobs (o : option (tree A)) : list X := flat_map node_obs (oinorder o).

Lemma tobs_Node lv nm d l r :
  tobs (Some (Node lv nm d l r)) = tobs l ++ obs lv nm d ++ tobs r.
Proof.
  unfold tobs. cbn [oinorder]. rewrite inorder_Node, flat_map_app. reflexivity.
Qed.

Lemma tobs_eq t :
  tobs (Some t) = tobs (t_left t) ++ obs (t_level t) (t_name t) (t_peek t) ++ tobs (t_right t).
Proof. destruct t. apply tobs_Node. Qed.

Lemma twf_eq t : twf t <->
  W (t_level t) (t_name t) (t_peek t) (t_left t) (t_right t) /\ otwf (t_left t) /\ otwf (t_right t).
Proof. destruct t. reflexivity. Qed.

Lemma twf_Node lv nm d l r : W lv nm d l r -> otwf l -> otwf r -> twf (Node lv nm d l r).
Proof. intros. simpl. auto. Qed.

Notation forest := (list (bool * tree A)).

(** Observations of the forests: an item of the left forest stands for its left
    branch and itself, an item of the right forest for itself and its right branch. *)
Fixpoint lf_obs (f : forest) : list X :=
  match f with
  | [] => []
  | (_, t) :: r => lf_obs r ++ tobs (t_left t) ++ obs (t_level t) (t_name t) (t_peek t)
  end.
Fixpoint rf_obs (f : forest) : list X :=
  match f with
  | [] => []
  | (_, t) :: r => obs (t_level t) (t_name t) (t_peek t) ++ tobs (t_right t) ++ rf_obs r
  end.
Definition cobs (c : cursor A) : list X :=
  lf_obs (l_forest c) ++ tobs (c_tree c) ++ rf_obs (r_forest c).

Definition lf_item (p : bool * tree A) : Prop :=
  let t := snd p in
  Rb (t_level t) (t_name t) (t_peek t) /\ otwf (t_left t) /\ allowed (t_left t).
Definition rf_item (p : bool * tree A) : Prop :=
  let t := snd p in
  Rb (t_level t) (t_name t) (t_peek t) /\ otwf (t_right t) /\ allowed (t_right t).

Definition pick (lf rf : forest) : option bool := up_to_left (Cursor false lf None rf).

Lemma up_to_left_pick c : up_to_left c = pick (l_forest c) (r_forest c).
Proof. destruct c. reflexivity. Qed.

(** A clean cursor hangs below a parent that really has it as child. *)
Inductive linked : bool -> forest -> option (tree A) -> forest -> Prop :=
| linked_dirty lf o rf : linked true lf o rf
| linked_root o : linked false [] o []
| linked_left d t lf o rf :
    pick ((d, t) :: lf) rf = Some true -> t_right t = o -> twf t ->
    linked d lf (Some t) rf -> linked false ((d, t) :: lf) o rf
| linked_right d t lf o rf :
    pick lf ((d, t) :: rf) = Some false -> t_left t = o -> twf t ->
    linked d lf (Some t) rf -> linked false lf o ((d, t) :: rf).

Record cwf (c : cursor A) : Prop := {
  cwf_tree : otwf (c_tree c);
  cwf_allowed : allowed (c_tree c);
  cwf_lf : Forall lf_item (l_forest c);
  cwf_rf : Forall rf_item (r_forest c);
  cwf_linked : linked (dirty c) (l_forest c) (c_tree c) (r_forest c)
}.

(** Order of the levels around the cursor. *)
Fixpoint lf_ord (f : forest) : Prop :=
  match f with
  | [] => True
  | (_, t) :: r =>
      oconventional (t_left t) /\ lev_lt (t_left t) (t_level t) /\ hd_le (t_level t) r /\ lf_ord r
  end.
Fixpoint rf_ord (f : forest) : Prop :=
  match f with
  | [] => True
  | (_, t) :: r =>
      oconventional (t_right t) /\ lev_le (t_right t) (t_level t) /\ hd_lt (t_level t) r /\ rf_ord r
  end.
Definition top_le (o : option (tree A)) (f : forest) : Prop :=
  match o with None => True | Some t => hd_le (t_level t) f end.
Definition top_lt (o : option (tree A)) (f : forest) : Prop :=
  match o with None => True | Some t => hd_lt (t_level t) f end.
Record corder (c : cursor A) : Prop := {
  co_tree : oconventional (c_tree c);
  co_lf : lf_ord (l_forest c);
  co_rf : rf_ord (r_forest c);
  co_le : top_le (c_tree c) (l_forest c);
  co_lt : top_lt (c_tree c) (r_forest c)
}.

Lemma conventional_eq (t : tree A) : conventional t <->
  lev_lt (t_left t) (t_level t) /\ lev_le (t_right t) (t_level t) /\
  oconventional (t_left t) /\ oconventional (t_right t).
Proof. destruct t. reflexivity. Qed.

Lemma top_le_lev (o : option (tree A)) d t lf : top_le o ((d, t) :: lf) -> lev_le o (t_level t).
Proof. destruct o; simpl; auto. Qed.
Lemma top_lt_lev (o : option (tree A)) d t rf : top_lt o ((d, t) :: rf) -> lev_lt o (t_level t).
Proof. destruct o; simpl; auto. Qed.

(** ** up *)
Lemma pick_true lf rf : pick lf rf = Some true ->
  exists d t lf', lf = (d, t) :: lf' /\ hd_lt (t_level t) rf.
Proof.
  unfold pick, up_to_left. destruct lf as [|[d t] lf], rf as [|[d' t'] rf]; simpl; try discriminate.
  - intros _. do 3 eexists. split; [reflexivity|]. exact I.
  - intros H. injection H as H. apply N.ltb_lt in H. do 3 eexists. split; [reflexivity|]. exact H.
Qed.

Lemma pick_false lf rf : pick lf rf = Some false ->
  exists d t rf', rf = (d, t) :: rf' /\ hd_le (t_level t) lf.
Proof.
  unfold pick, up_to_left. destruct lf as [|[d t] lf], rf as [|[d' t'] rf]; simpl; try discriminate.
  - intros _. do 3 eexists. split; [reflexivity|]. exact I.
  - intros H. injection H as H. apply N.ltb_ge in H. do 3 eexists. split; [reflexivity|]. exact H.
Qed.

Lemma pick_none lf rf : pick lf rf = None -> lf = [] /\ rf = [].
Proof.
  unfold pick, up_to_left. destruct lf as [|[d t] lf], rf as [|[d' t'] rf]; simpl; try discriminate; auto.
Qed.

Lemma pick_left_true d t lf rf : hd_lt (t_level t) rf -> pick ((d, t) :: lf) rf = Some true.
Proof.
  unfold pick, up_to_left. destruct rf as [|[d' t'] rf]; simpl; auto.
  intros H. f_equal. now apply N.ltb_lt.
Qed.

Lemma pick_right_false d t lf rf : hd_le (t_level t) lf -> pick lf ((d, t) :: rf) = Some false.
Proof.
  unfold pick, up_to_left. destruct lf as [|[d' t'] lf]; simpl; auto.
  intros H. f_equal. now apply N.ltb_ge.
Qed.

Lemma up_fail c : l_forest c = [] -> r_forest c = [] -> up c = Ok (UpFail, c).
Proof. intros L R. unfold up, up_to_left. rewrite L, R. reflexivity. Qed.

Lemma up_left_step c : cwf c -> pick (l_forest c) (r_forest c) = Some true ->
  exists d ut lf t',
    l_forest c = (d, ut) :: lf /\
    up c = Ok (UpLeft, Cursor (if dirty c then true else d) lf (Some t') (r_forest c)) /\
    t_level t' = t_level ut /\ t_name t' = t_name ut /\
    t_left t' = t_left ut /\ t_right t' = c_tree c /\
    (dirty c = false -> t' = ut) /\
    obs (t_level ut) (t_name ut) (t_peek t') = obs (t_level ut) (t_name ut) (t_peek ut) /\
    cwf (Cursor (if dirty c then true else d) lf (Some t') (r_forest c)).
Proof.
  intros [Ht Ha Hl Hr Hk] P. unfold up. rewrite up_to_left_pick, P.
  destruct (l_forest c) as [|[d ut] lf] eqn:L.
  { apply pick_true in P. destruct P as (? & ? & ? & ? & _). discriminate. }
  inversion Hl as [|? ? [Hi1 [Hi2 Hi3]] Hl']; subst. simpl in Hi1, Hi2, Hi3.
  destruct (dirty c) eqn:D.
  - destruct (H_reb _ _ _ (t_left ut) (c_tree c) (H_weak _ _ _ Hi1) Hi2 Hi3 Ht Ha) as (d' & R & HW & HO).
    rewrite R. simpl. rewrite tree_new_eq.
    do 4 eexists. split; [reflexivity|]. split; [reflexivity|]. simpl.
    do 5 (split; [reflexivity || discriminate|]). split; [exact HO|].
    constructor; simpl; auto using linked_dirty.
  - exists d, ut, lf, ut. split; [reflexivity|]. split; [reflexivity|].
    inversion Hk; subst.
    + do 3 (split; [reflexivity|]). split; [assumption|]. do 2 (split; [reflexivity|]).
      constructor; simpl; auto.
    + congruence.
Qed.

Lemma up_right_step c : cwf c -> pick (l_forest c) (r_forest c) = Some false ->
  exists d ut rf t',
    r_forest c = (d, ut) :: rf /\
    up c = Ok (UpRight, Cursor (if dirty c then true else d) (l_forest c) (Some t') rf) /\
    t_level t' = t_level ut /\ t_name t' = t_name ut /\
    t_left t' = c_tree c /\ t_right t' = t_right ut /\
    (dirty c = false -> t' = ut) /\
    obs (t_level ut) (t_name ut) (t_peek t') = obs (t_level ut) (t_name ut) (t_peek ut) /\
    cwf (Cursor (if dirty c then true else d) (l_forest c) (Some t') rf).
Proof.
  intros [Ht Ha Hl Hr Hk] P. unfold up. rewrite up_to_left_pick, P.
  destruct (r_forest c) as [|[d ut] rf] eqn:L.
  { apply pick_false in P. destruct P as (? & ? & ? & ? & _). discriminate. }
  inversion Hr as [|? ? [Hi1 [Hi2 Hi3]] Hr']; subst. simpl in Hi1, Hi2, Hi3.
  destruct (dirty c) eqn:D.
  - destruct (H_reb _ _ _ (c_tree c) (t_right ut) (H_weak _ _ _ Hi1) Ht Ha Hi2 Hi3) as (d' & R & HW & HO).
    rewrite R. simpl. rewrite tree_new_eq.
    do 4 eexists. split; [reflexivity|]. split; [reflexivity|]. simpl.
    do 5 (split; [reflexivity || discriminate|]). split; [exact HO|].
    constructor; simpl; auto using linked_dirty.
  - exists d, ut, rf, ut. split; [reflexivity|]. split; [reflexivity|].
    inversion Hk; subst.
    + congruence.
    + do 2 (split; [reflexivity|]). split; [assumption|]. do 3 (split; [reflexivity|]).
      constructor; simpl; auto.
Qed.

(** One step up: nothing observable changes, order is kept, one forest item is used. *)
Lemma up_step c b : cwf c -> pick (l_forest c) (r_forest c) = Some b ->
  exists c', up c = Ok (if b then UpLeft else UpRight, c') /\
    cwf c' /\ cobs c' = cobs c /\ (corder c -> corder c') /\
    (dirty c = true -> dirty c' = true) /\
    exists p t', c_tree c' = Some t' /\ t_level t' = t_level (snd p) /\
    (if b then l_forest c = p :: l_forest c' /\ r_forest c' = r_forest c /\
               t_left t' = t_left (snd p) /\ t_right t' = c_tree c
     else r_forest c = p :: r_forest c' /\ l_forest c' = l_forest c /\
               t_left t' = c_tree c /\ t_right t' = t_right (snd p)).
Proof.
  intros C P. destruct b.
  - destruct (up_left_step c C P) as (d & ut & lf & t' & L & U & E1 & E2 & E3 & E4 & E5 & E6 & C').
    eexists. split; [exact U|]. split; [exact C'|]. split; [|split; [|split]].
    + unfold cobs. simpl. rewrite L. simpl.
      rewrite tobs_eq, E1, E2, E3, E4, E6. rewrite <- !app_assoc. reflexivity.
    + intros [O1 O2 O3 O4 O5]. rewrite L in *. simpl in O2. destruct O2 as (Q1 & Q2 & Q3 & Q4).
      destruct (pick_true _ _ P) as (? & ? & ? & Eq & HP). inv Eq.
      constructor; simpl; rewrite ?E1; auto.
      apply conventional_eq. rewrite E1, E3, E4. apply top_le_lev in O4. auto.
    + simpl. intros ->. reflexivity.
    + exists (d, ut), t'. simpl. auto 7.
  - destruct (up_right_step c C P) as (d & ut & rf & t' & L & U & E1 & E2 & E3 & E4 & E5 & E6 & C').
    eexists. split; [exact U|]. split; [exact C'|]. split; [|split; [|split]].
    + unfold cobs. simpl. rewrite L. simpl.
      rewrite tobs_eq, E1, E2, E3, E4, E6. rewrite <- !app_assoc. reflexivity.
    + intros [O1 O2 O3 O4 O5]. rewrite L in *. simpl in O3. destruct O3 as (Q1 & Q2 & Q3 & Q4).
      destruct (pick_false _ _ P) as (? & ? & ? & Eq & HP). inv Eq.
      constructor; simpl; rewrite ?E1; auto.
      apply conventional_eq. rewrite E1, E3, E4. apply top_lt_lev in O5. auto.
    + simpl. intros ->. reflexivity.
    + exists (d, ut), t'. simpl. auto 7.
Qed.

Lemma pick_nonempty lf rf : (lf <> [] \/ rf <> []) -> exists b, pick lf rf = Some b.
Proof.
  destruct (pick lf rf) as [b|] eqn:P; [eauto|].
  apply pick_none in P. destruct P as [-> ->]. intros [H|H]; congruence.
Qed.

(** ** Going up to the root *)
Lemma up_all_spec c : cwf c ->
  exists c', up_all c = Ok c' /\ cwf c' /\ l_forest c' = [] /\ r_forest c' = [] /\
    cobs c' = cobs c /\ (corder c -> corder c') /\
    (c_tree c <> None -> c_tree c' <> None).
Proof.
  intros C. unfold up_all.
  apply (loop_total
    (fun s => cwf s /\ cobs s = cobs c /\ (corder c -> corder s) /\ (c_tree c <> None -> c_tree s <> None))
    _ (fun s => forest_len s)); [|auto|lia].
  intros s (Cs & Os & Ks & Ts).
  destruct (pick (l_forest s) (r_forest s)) as [b|] eqn:P.
  - destruct (up_step s b Cs P) as (s' & U & Cs' & Os' & Ks' & _ & p & t' & T & L & F).
    rewrite U. simpl. exists (inl s'). split; [destruct b; reflexivity|].
    split; [split; [exact Cs'|split; [congruence|split; [auto|congruence]]]|].
    unfold forest_len. destruct b; destruct F as (F1 & F2 & _); rewrite F1, F2; simpl; lia.
  - apply pick_none in P. destruct P as [P1 P2]. rewrite up_fail by assumption. simpl.
    exists (inr s). auto 8.
Qed.

Lemma cobs_root c : l_forest c = [] -> r_forest c = [] -> cobs c = tobs (c_tree c).
Proof. intros L R. unfold cobs. rewrite L, R. simpl. now rewrite app_nil_r. Qed.

(** ** join *)
Lemma up_or_panic_step c b : cwf c -> pick (l_forest c) (r_forest c) = Some b ->
  exists c', up_or_panic c = Ok c' /\ up c = Ok (if b then UpLeft else UpRight, c').
Proof.
  intros C P. destruct (up_step c b C P) as (c' & U & _). exists c'. unfold up_or_panic.
  rewrite U. destruct b; auto.
Qed.

Lemma join_clear_right_spec c : cwf c ->
  exists c', join_clear_right c = Ok c' /\ cwf c' /\ r_forest c' = [] /\
    cobs c' = cobs c /\ (corder c -> corder c').
Proof.
  intros C. unfold join_clear_right.
  apply (loop_total (fun s => cwf s /\ cobs s = cobs c /\ (corder c -> corder s))
    _ (fun s => forest_len s)); [|auto|lia].
  intros s (Cs & Os & Ks).
  destruct (r_forest s) as [|q rf] eqn:R.
  - exists (inr s). auto 6.
  - destruct (pick_nonempty (l_forest s) (r_forest s)) as (b & P); [right; congruence|].
    destruct (up_or_panic_step s b Cs P) as (s' & V & U).
    destruct (up_step s b Cs P) as (s'' & U' & Cs' & Os' & Ks' & _ & p & t' & T & L & F).
    rewrite U in U'. injection U' as <-. rewrite V. simpl. exists (inl s'). split; [reflexivity|].
    split; [split; [exact Cs'|split; [congruence|auto]]|].
    unfold forest_len. destruct b; destruct F as (F1 & F2 & _); rewrite F1, F2; simpl; lia.
Qed.

Lemma join_clear_left_spec c : cwf c ->
  exists c', join_clear_left c = Ok c' /\ cwf c' /\ l_forest c' = [] /\
    cobs c' = cobs c /\ (corder c -> corder c').
Proof.
  intros C. unfold join_clear_left.
  apply (loop_total (fun s => cwf s /\ cobs s = cobs c /\ (corder c -> corder s))
    _ (fun s => forest_len s)); [|auto|lia].
  intros s (Cs & Os & Ks).
  destruct (l_forest s) as [|q lf] eqn:R.
  - exists (inr s). auto 6.
  - destruct (pick_nonempty (l_forest s) (r_forest s)) as (b & P); [left; congruence|].
    destruct (up_or_panic_step s b Cs P) as (s' & V & U).
    destruct (up_step s b Cs P) as (s'' & U' & Cs' & Os' & Ks' & _ & p & t' & T & L & F).
    rewrite U in U'. injection U' as <-. rewrite V. simpl. exists (inl s'). split; [reflexivity|].
    split; [split; [exact Cs'|split; [congruence|auto]]|].
    unfold forest_len. destruct b; destruct F as (F1 & F2 & _); rewrite F1, F2; simpl; lia.
Qed.

Lemma join_left_up_spec lev c : cwf c -> r_forest c = [] ->
  exists c', join_left_up lev c = Ok c' /\ cwf c' /\ r_forest c' = [] /\
    cobs c' = cobs c /\ (corder c -> corder c') /\ hd_le lev (l_forest c').
Proof.
  intros C R. unfold join_left_up.
  apply (loop_total (fun s => cwf s /\ r_forest s = [] /\ cobs s = cobs c /\ (corder c -> corder s))
    _ (fun s => forest_len s)); [|auto|lia].
  intros s (Cs & Rs & Os & Ks). unfold up_left_level.
  destruct (l_forest s) as [|[d t] lf] eqn:L.
  - exists (inr s). rewrite L. simpl. auto 8.
  - destruct (lev <=? t_level t)%N eqn:Lev.
    + exists (inr s). rewrite L. simpl. apply N.leb_le in Lev. auto 8.
    + assert (P : pick (l_forest s) (r_forest s) = Some true).
      { rewrite L, Rs. reflexivity. }
      destruct (up_or_panic_step s true Cs P) as (s' & V & U).
      destruct (up_step s true Cs P) as (s'' & U' & Cs' & Os' & Ks' & _ & p & t' & T & Lv & F).
      rewrite U in U'. injection U' as <-. rewrite V. simpl. exists (inl s'). split; [reflexivity|].
      destruct F as (F1 & F2 & _).
      split; [split; [exact Cs'|split; [congruence|split; [congruence|auto]]]|].
      unfold forest_len. rewrite F1, F2. simpl. lia.
Qed.

Lemma join_right_up_spec lev c : cwf c -> l_forest c = [] ->
  exists c', join_right_up lev c = Ok c' /\ cwf c' /\ l_forest c' = [] /\
    cobs c' = cobs c /\ (corder c -> corder c') /\ hd_lt lev (r_forest c').
Proof.
  intros C R. unfold join_right_up.
  apply (loop_total (fun s => cwf s /\ l_forest s = [] /\ cobs s = cobs c /\ (corder c -> corder s))
    _ (fun s => forest_len s)); [|auto|lia].
  intros s (Cs & Rs & Os & Ks). unfold up_right_level.
  destruct (r_forest s) as [|[d t] rf] eqn:L.
  - exists (inr s). rewrite L. simpl. auto 8.
  - destruct (lev <? t_level t)%N eqn:Lev.
    + exists (inr s). rewrite L. simpl. apply N.ltb_lt in Lev. auto 8.
    + assert (P : pick (l_forest s) (r_forest s) = Some false).
      { rewrite L, Rs. reflexivity. }
      destruct (up_or_panic_step s false Cs P) as (s' & V & U).
      destruct (up_step s false Cs P) as (s'' & U' & Cs' & Os' & Ks' & _ & p & t' & T & Lv & F).
      rewrite U in U'. injection U' as <-. rewrite V. simpl. exists (inl s'). split; [reflexivity|].
      destruct F as (F1 & F2 & _).
      split; [split; [exact Cs'|split; [congruence|split; [congruence|auto]]]|].
      unfold forest_len. rewrite F1, F2. simpl. lia.
Qed.

(** Stepping down: the general facts, given the choice [up] will make. *)
Lemma down_right_cwf c t f : cwf c -> c_tree c = Some t -> f <> ForceDiscard ->
  (f = ForceNo -> t_right t <> None) ->
  inner (t_level t) -> hd_lt (t_level t) (r_forest c) ->
  let c' := Cursor false ((dirty c, t) :: l_forest c) (t_right t) (r_forest c) in
  down_right_force f c = (true, c') /\ cwf c' /\ cobs c' = cobs c /\ (corder c -> corder c').
Proof.
  intros C T F Fn I Hr c'.
  assert (E : down_right_force f c = (true, c')).
  { unfold c', down_right_force. rewrite T.
    destruct (t_right t), f; try congruence; try reflexivity. now elim Fn. }
  split; [exact E|]. clear E Fn F.
  destruct C as [Ht Ha Hl Hrf Hk]. rewrite T in *. simpl in Ht.
  apply twf_eq in Ht. destruct Ht as (HW & Wl & Wr).
  destruct (H_inner _ _ _ _ _ HW I) as (HR & Al & Ar).
  split; [|split].
  - constructor; simpl; auto.
    + constructor; auto. split; auto.
    + apply linked_left; auto.
      * now apply pick_left_true.
      * apply twf_eq. auto.
  - unfold cobs. simpl. rewrite T, tobs_eq. rewrite <- !app_assoc. reflexivity.
  - intros [O1 O2 O3 O4 O5]. rewrite T in *. simpl in O1, O4, O5. apply conventional_eq in O1.
    destruct O1 as (Q1 & Q2 & Q3 & Q4). constructor; simpl; auto.
    destruct (t_right t) as [tr|]; simpl in *; auto. unfold hd_lt in *.
      destruct (r_forest c) as [|[? ?] ?]; auto. lia.
Qed.

Lemma down_left_cwf c t f : cwf c -> c_tree c = Some t -> f <> ForceDiscard ->
  (f = ForceNo -> t_left t <> None) ->
  inner (t_level t) -> hd_le (t_level t) (l_forest c) ->
  let c' := Cursor false (l_forest c) (t_left t) ((dirty c, t) :: r_forest c) in
  down_left_force f c = (true, c') /\ cwf c' /\ cobs c' = cobs c /\ (corder c -> corder c').
Proof.
  intros C T F Fn I Hr c'.
  assert (E : down_left_force f c = (true, c')).
  { unfold c', down_left_force. rewrite T.
    destruct (t_left t), f; try congruence; try reflexivity. now elim Fn. }
  split; [exact E|]. clear E Fn F.
  destruct C as [Ht Ha Hl Hrf Hk]. rewrite T in *. simpl in Ht.
  apply twf_eq in Ht. destruct Ht as (HW & Wl & Wr).
  destruct (H_inner _ _ _ _ _ HW I) as (HR & Al & Ar).
  split; [|split].
  - constructor; simpl; auto.
    + constructor; auto. split; auto.
    + apply linked_right; auto.
      * now apply pick_right_false.
      * apply twf_eq. auto.
  - unfold cobs. simpl. rewrite T, tobs_eq. rewrite <- !app_assoc. reflexivity.
  - intros [O1 O2 O3 O4 O5]. rewrite T in *. simpl in O1, O4, O5. apply conventional_eq in O1.
    destruct O1 as (Q1 & Q2 & Q3 & Q4). constructor; simpl; auto.
    destruct (t_left t) as [tl|]; simpl in *; auto. unfold hd_le in *.
      destruct (l_forest c) as [|[? ?] ?]; auto. lia.
Qed.

Lemma t_size_right (t : tree A) : ot_size (t_right t) < t_size t.
Proof. destruct t as [? ? ? l r]; simpl. destruct r; simpl; lia. Qed.
Lemma t_size_left (t : tree A) : ot_size (t_left t) < t_size t.
Proof. destruct t as [? ? ? l r]; simpl. destruct l; simpl; lia. Qed.

Lemma join_left_down_spec lev c : (forall h, (lev <= h)%N -> inner h) ->
  cwf c -> r_forest c = [] -> hd_le lev (l_forest c) ->
  exists c', join_left_down lev c = Ok c' /\ cwf c' /\ r_forest c' = [] /\
    cobs c' = cobs c /\ (corder c -> corder c') /\ hd_le lev (l_forest c') /\ lev_lt (c_tree c') lev.
Proof.
  intros HI C R HL. unfold join_left_down.
  apply (loop_total (fun s => cwf s /\ r_forest s = [] /\ cobs s = cobs c /\ (corder c -> corder s)
    /\ hd_le lev (l_forest s)) _ (fun s => ot_size (c_tree s))); [|auto 6|lia].
  intros s (Cs & Rs & Os & Ks & Hs). unfold peek_level.
  destruct (c_tree s) as [t|] eqn:T; simpl.
  - destruct (t_level t <? lev)%N eqn:Lv.
    + exists (inr s). apply N.ltb_lt in Lv. rewrite T. simpl. auto 8.
    + apply N.ltb_ge in Lv.
      destruct (down_right_cwf s t ForceYes Cs T) as (E & Cs' & Os' & Ks'); auto; try discriminate.
      { rewrite Rs. exact I. }
      rewrite E. simpl. eexists. split; [reflexivity|]. simpl.
      split; [split; [exact Cs'|split; [assumption|split; [congruence|split; [auto|simpl; assumption || lia]]]]|].
      apply t_size_right.
  - exists (inr s). rewrite T. simpl. auto 8.
Qed.

Lemma join_right_down_spec lev c : (forall h, (lev <= h)%N -> inner h) ->
  cwf c -> l_forest c = [] -> hd_lt lev (r_forest c) ->
  exists c', join_right_down lev c = Ok c' /\ cwf c' /\ l_forest c' = [] /\
    cobs c' = cobs c /\ (corder c -> corder c') /\ hd_lt lev (r_forest c') /\ lev_le (c_tree c') lev.
Proof.
  intros HI C R HL. unfold join_right_down.
  apply (loop_total (fun s => cwf s /\ l_forest s = [] /\ cobs s = cobs c /\ (corder c -> corder s)
    /\ hd_lt lev (r_forest s)) _ (fun s => ot_size (c_tree s))); [|auto 6|lia].
  intros s (Cs & Rs & Os & Ks & Hs). unfold peek_level.
  destruct (c_tree s) as [t|] eqn:T; simpl.
  - destruct (t_level t <=? lev)%N eqn:Lv.
    + exists (inr s). apply N.leb_le in Lv. rewrite T. simpl. auto 8.
    + apply N.leb_gt in Lv.
      destruct (down_left_cwf s t ForceYes Cs T) as (E & Cs' & Os' & Ks'); auto; try discriminate.
      { apply HI. lia. }
      { rewrite Rs. exact I. }
      rewrite E. simpl. eexists. split; [reflexivity|]. simpl.
      split; [split; [exact Cs'|split; [assumption|split; [congruence|split; [auto|simpl; assumption || lia]]]]|].
      apply t_size_left.
  - exists (inr s). rewrite T. simpl. auto 8.
Qed.

Theorem c_join_spec lc lev nm data rc :
  (forall h, (lev <= h)%N -> inner h) -> Rb0 lev nm data -> cwf lc -> cwf rc ->
  exists c, c_join lc lev nm data rc = Ok c /\ cwf c /\ dirty c = true /\
    cobs c = cobs lc ++ obs lev nm data ++ cobs rc /\
    (corder lc -> corder rc -> corder c) /\ c_tree c <> None.
Proof.
  intros HI HR Cl Cr. unfold c_join.
  destruct (join_clear_right_spec lc Cl) as (l1 & -> & Cl1 & Rl1 & Ol1 & Kl1). simpl.
  destruct (join_clear_left_spec rc Cr) as (r1 & -> & Cr1 & Lr1 & Or1 & Kr1). simpl.
  destruct (join_left_up_spec lev l1 Cl1 Rl1) as (l2 & -> & Cl2 & Rl2 & Ol2 & Kl2 & Hl2). simpl.
  destruct (join_left_down_spec lev l2 HI Cl2 Rl2 Hl2) as (l3 & -> & Cl3 & Rl3 & Ol3 & Kl3 & Hl3 & Tl3). simpl.
  destruct (join_right_up_spec lev r1 Cr1 Lr1) as (r2 & -> & Cr2 & Lr2 & Or2 & Kr2 & Hr2). simpl.
  destruct (join_right_down_spec lev r2 HI Cr2 Lr2 Hr2) as (r3 & -> & Cr3 & Lr3 & Or3 & Kr3 & Hr3 & Tr3). simpl.
  destruct (H_reb lev nm data (c_tree l3) (c_tree r3) HR (cwf_tree _ Cl3) (cwf_allowed _ Cl3)
              (cwf_tree _ Cr3) (cwf_allowed _ Cr3)) as (d' & -> & HW & HO). simpl.
  rewrite tree_new_eq. simpl. eexists. split; [reflexivity|].
  split; [|split; [reflexivity|split; [|split]]].
  - constructor; simpl.
    + split; [exact HW|]. split; [apply Cl3|apply Cr3].
    + apply H_some.
    + apply Cl3.
    + apply Cr3.
    + constructor.
  - unfold cobs at 1. simpl. rewrite tobs_Node, HO.
    rewrite <- Ol1, <- Ol2, <- Ol3, <- Or1, <- Or2, <- Or3. unfold cobs.
    rewrite Rl3, Lr3. simpl. rewrite app_nil_r, <- !app_assoc. reflexivity.
  - intros Kl Kr. specialize (Kl3 (Kl2 (Kl1 Kl))). specialize (Kr3 (Kr2 (Kr1 Kr))).
    destruct Kl3 as [A1 A2 A3 A4 A5]. destruct Kr3 as [B1 B2 B3 B4 B5].
    constructor; simpl; auto.
  - discriminate.
Qed.

Lemma cwf_from t : twf t -> cwf (c_from t).
Proof. intros H. constructor; simpl; auto. constructor. Qed.

Lemma corder_from t : conventional t -> corder (c_from t).
Proof. intros H. constructor; simpl; auto. Qed.

Lemma cobs_from t : cobs (c_from t) = tobs (Some t).
Proof. unfold cobs. simpl. now rewrite app_nil_r. Qed.

End Cursor.
