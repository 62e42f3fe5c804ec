(** * Proofs about memoised folds over Raz trees: which nodes an edit changes. *)

From Verif Require Import Base BaseFacts Spec SpecRaz LevelTreeModel TreeSpec TreeProofs TreeCursorModel
  RazMetaModel RazModel CursorProofs RazView RazProofs RazFocus MemoModel MemoSpec MemoProofs MemoCost.

Section MemoRaz.
Context {E M : Type} {RM : RazMeta E M}.
Notation rtree := (tree (tree_data E M)).
Notation atoms := (list (atom E level)).
Notation at_ t := (tree_atoms (Some t)).

(** ** Names *)
Lemma marks_app (a b : atoms) : marks (a ++ b) = marks a ++ marks b.
Proof. induction a as [|[e|m n] a IH]; simpl; [reflexivity|exact IH|now rewrite IH]. Qed.
Lemma marks_elts (v : list E) : marks (map (@Elt E level) v) = [].
Proof. induction v; auto. Qed.

Lemma tree_names (t : rtree) : tree_ok t -> forall n, In n (names t) <-> has_point n (at_ t).
Proof.
  induction t as [lv nm d l r Hl Hr] using tree_induction. intros O n.
  destruct (tree_ok_case _ O) as [(v & X & Hv)|(lv' & nm' & ml & mr & tl & tr & X & Lv & _ & _ & Kl & Kr)]; inv X.
  - change (Node 0%N None (Leaf v) None None) with (leaf_of (M := M) v). unfold has_point.
    rewrite tree_atoms_leaf, marks_elts. simpl. tauto.
  - simpl in Hl, Hr. unfold has_point in *. rewrite tree_atoms_branch, marks_app, map_app. cbn [marks map].
    rewrite in_app_iff. cbn [In]. rewrite <- (Hl Kl), <- (Hr Kr), names_eq, !in_app_iff. cbn [onames].
    destruct nm' as [n'|]; simpl.
    + assert (n' = n <-> Some n' = Some n) by (split; congruence). tauto.
    + assert (None = Some n <-> False) by (split; [discriminate|tauto]). tauto.
Qed.
Lemma tree_names_nodup (t : rtree) : tree_ok t -> NoDup (map snd (marks (at_ t))) -> NoDup (names t).
Proof.
  induction t as [lv nm d l r Hl Hr] using tree_induction. intros O N.
  destruct (tree_ok_case _ O) as [(v & X & Hv)|(lv' & nm' & ml & mr & tl & tr & X & Lv & _ & _ & Kl & Kr)]; inv X.
  - constructor.
  - simpl in Hl, Hr. rewrite tree_atoms_branch, marks_app, map_app in N. cbn [marks map snd] in N.
    assert (N' : NoDup (nm' :: map snd (marks (at_ tl)) ++ map snd (marks (at_ tr)))).
    { apply NoDup_remove in N. destruct N as [N1 N2]. constructor; auto. }
    inv N'. rename H1 into Nn, H2 into N'. apply NoDup_app_inv in N'. destruct N' as (Nl & Nr & D).
    rewrite names_eq. cbn [onames].
    assert (Z : NoDup (names tl ++ names tr)).
    { clear - Hl Hr Kl Kr Nl Nr D. specialize (Hl Kl Nl). specialize (Hr Kr Nr).
      assert (Q : forall x, In x (names tl) -> ~ In x (names tr)).
      { intros x I1 I2. apply (tree_names tl Kl) in I1. apply (tree_names tr Kr) in I2. eapply D; [exact I1|exact I2]. }
      induction (names tl) as [|x a IH]; [exact Hr|]. simpl. inv Hl. constructor.
      - rewrite in_app_iff. intros [I|I]; [contradiction|]. apply (Q x); [left; reflexivity|exact I].
      - apply IH; [assumption|]. intros y Y. apply Q. now right. }
    destruct nm' as [n|]; [|exact Z]. simpl. constructor; [|exact Z].
    intros I. apply Nn. rewrite in_app_iff in *. destruct I as [I|I]; [left|right].
    + apply (tree_names tl Kl) in I. exact I.
    + apply (tree_names tr Kr) in I. exact I.
Qed.
Lemma subtrees_ok (t : rtree) : forall s, In s (subtrees t) -> tree_ok t -> tree_ok s.
Proof.
  induction t as [lv nm d l r Hl Hr] using tree_induction. intros s [<-|I] O; [exact O|].
  change (In s (osubtrees l ++ osubtrees r)) in I. destruct O as (_ & Ol & Or).
  apply in_app_or in I. destruct I as [I|I].
  - destruct l; [|contradiction]. simpl in *. auto.
  - destruct r; [|contradiction]. simpl in *. auto.
Qed.
Lemma subtrees_conv {A} (t : tree A) : forall s, In s (subtrees t) -> conventional t -> conventional s.
Proof.
  induction t as [lv nm d l r Hl Hr] using tree_induction. intros s [<-|I] O; [exact O|].
  change (In s (osubtrees l ++ osubtrees r)) in I. destruct O as (_ & _ & Ol & Or).
  apply in_app_or in I. destruct I as [I|I].
  - destruct l; [|contradiction]. simpl in *. auto.
  - destruct r; [|contradiction]. simpl in *. auto.
Qed.
Lemma tree_inner_named (t : rtree) : tree_ok t -> (forall p, In p (marks (at_ t)) -> snd p <> None) -> inner_named t.
Proof.
  intros O N lv nm d l r I. pose proof (subtrees_ok t _ I O) as O1.
  destruct (tree_ok_case _ O1) as [(v & X & Hv)|(lv' & nm' & ml & mr & tl & tr & X & Lv & _ & _ & Kl & Kr)]; inv X; auto.
  assert (Z : In (lv', nm') (marks (at_ t))).
  { clear - O I. revert O I. induction t as [lv nm d l r Hl Hr] using tree_induction. intros O I.
    destruct (tree_ok_case _ O) as [(v & X & Hv)|(lv1 & nm1 & ml1 & mr1 & tl1 & tr1 & X & Lv & _ & _ & Kl & Kr)]; inv X.
    - destruct I as [I|[]]. discriminate.
    - rewrite tree_atoms_branch, marks_app, in_app_iff. destruct I as [I|I].
      + injection I as -> -> -> -> -> ->. right. left. reflexivity.
      + apply in_app_or in I. simpl in Hl, Hr. destruct I as [I|I]; [left; auto|right; right; auto]. }
  destruct nm' as [n|]; [split; discriminate|]. elim (N _ Z). reflexivity.
Qed.

(** ** The span of an archive point *)
(** [low m ctx]: up to the first archive point of level at least [m]; [lowe]: above [m]. *)
Fixpoint low (m : level) (l : atoms) : atoms :=
  match l with
  | Mark m' n :: r => if (m' <? m)%N then Mark m' n :: low m r else []
  | x :: r => x :: low m r
  | [] => []
  end.
Fixpoint high (m : level) (l : atoms) : atoms :=
  match l with
  | Mark m' n :: r => if (m' <? m)%N then high m r else l
  | x :: r => high m r
  | [] => []
  end.
Fixpoint lowe (m : level) (l : atoms) : atoms :=
  match l with
  | Mark m' n :: r => if (m' <=? m)%N then Mark m' n :: lowe m r else []
  | x :: r => x :: lowe m r
  | [] => []
  end.
(** For each archive point of [l] between [rev ctx] and [rest]: the atoms before its
    subtree and the atoms of its subtree. *)
Fixpoint spans (ctx l rest : atoms) : list (atoms * atoms) :=
  match l with
  | [] => []
  | Elt e :: r => spans (Elt e :: ctx) r rest
  | Mark m n :: r =>
      (rev (high m ctx), rev (low m ctx) ++ Mark m n :: lowe m (r ++ rest)) :: spans (Mark m n :: ctx) r rest
  end.
Lemma spans_app a : forall ctx b rest, spans ctx (a ++ b) rest = spans ctx a (b ++ rest) ++ spans (rev a ++ ctx) b rest.
Proof.
  induction a as [|[e|m n] a IH]; intros ctx b rest; simpl; [reflexivity| |].
  - rewrite IH, <- app_assoc. reflexivity.
  - rewrite IH, <- !app_assoc. reflexivity.
Qed.
Lemma spans_elts v ctx rest : spans ctx (map Elt v) rest = [].
Proof. revert ctx. induction v; simpl; auto. Qed.

Fixpoint locs (ctx : atoms) (t : rtree) : list (atoms * atoms) :=
  match t with
  | Node lv nm d (Some l) (Some r) =>
      locs ctx l ++ (rev ctx, at_ t) :: locs (Mark lv nm :: rev (at_ l) ++ ctx) r
  | _ => []
  end.

Definition stops_left (m : level) (ctx : atoms) : Prop :=
  match ctx with [] => True | Mark b _ :: _ => (m <= b)%N | _ => False end.
Definition stops_right (m : level) (rest : atoms) : Prop :=
  match rest with [] => True | Mark b _ :: _ => (m < b)%N | _ => False end.
Lemma low_stop m ctx : stops_left m ctx -> low m ctx = [] /\ high m ctx = ctx.
Proof.
  destruct ctx as [|[e|b n] ctx]; simpl; intros H; [auto|contradiction|].
  destruct (N.ltb_spec b m); [lia|auto].
Qed.
Lemma lowe_stop m rest : stops_right m rest -> lowe m rest = [].
Proof.
  destruct rest as [|[e|b n] rest]; simpl; intros H; [auto|contradiction|].
  destruct (N.leb_spec b m); [lia|auto].
Qed.
Lemma low_through m a ctx : Forall (fun x => match x with Elt _ => True | Mark b _ => (b < m)%N end) a ->
  low m (a ++ ctx) = a ++ low m ctx /\ high m (a ++ ctx) = high m ctx.
Proof.
  induction 1 as [|[e|b n] a H Ha [IH1 IH2]]; simpl; [auto| |].
  - rewrite IH1. auto.
  - destruct (N.ltb_spec b m); [|lia]. rewrite IH1. auto.
Qed.
Lemma lowe_through m a rest : Forall (fun x => match x with Elt _ => True | Mark b _ => (b <= m)%N end) a ->
  lowe m (a ++ rest) = a ++ lowe m rest.
Proof.
  induction 1 as [|[e|b n] a H Ha IH]; simpl; [auto|now rewrite IH|].
  destruct (N.leb_spec b m); [|lia]. now rewrite IH.
Qed.

Lemma spans_tree (t : rtree) : tree_ok t -> conventional t -> forall ctx rest,
  stops_left (t_level t) ctx -> stops_right (t_level t) rest -> spans ctx (at_ t) rest = locs ctx t.
Proof.
  induction t as [lv nm d l r Hl Hr] using tree_induction. intros O C ctx rest SL SR.
  destruct (tree_ok_case _ O) as [(v & X & Hv)|(lv' & nm' & ml & mr & tl & tr & X & Lv & _ & _ & Kl & Kr)]; inv X.
  - change (Node 0%N None (Leaf v) None None) with (leaf_of (M := M) v). rewrite tree_atoms_leaf, spans_elts. reflexivity.
  - simpl in Hl, Hr, C, SL, SR. destruct C as (Q1 & Q2 & Q3 & Q4).
    cbn [locs]. rewrite tree_atoms_branch, spans_app. cbn [spans].
    assert (SL' : forall m, (m <= lv')%N -> stops_left m ctx).
    { intros m Hm. destruct ctx as [|[e|b n] ctx]; simpl in *; auto. lia. }
    pose proof (atoms_bounded tl Kl Q3) as Bl. pose proof (atoms_bounded tr Kr Q4) as Br.
    f_equal; [|f_equal].
    + apply Hl; auto. apply SL'. lia.
    + destruct (low_through lv' (rev (at_ tl)) ctx) as (E1 & E2).
      { apply Forall_rev. eapply Forall_impl; [|exact Bl]. intros [e|b n]; simpl; [auto|lia]. }
      destruct (low_stop lv' ctx SL) as (E3 & E4).
      assert (E5 : lowe lv' (at_ tr ++ rest) = at_ tr).
      { rewrite lowe_through; [now rewrite (lowe_stop _ _ SR), app_nil_r|].
        eapply Forall_impl; [|exact Br]. intros [e|b n]; simpl; [auto|lia]. }
      rewrite E3, app_nil_r in E1. rewrite E4 in E2. f_equal.
      * f_equal. exact E2.
      * f_equal; [|f_equal; exact E5]. etransitivity; [apply f_equal; exact E1|]. apply rev_involutive.
    + apply Hr; auto. destruct rest as [|[e|b n] rest]; simpl in *; auto. lia.
Qed.

(** ** Trees by their spans *)
Fixpoint inners {A} (t : tree A) : list (tree A) :=
  match t with
  | Node _ _ _ (Some l) (Some r) => inners l ++ t :: inners r
  | _ => []
  end.
Lemma locs_inners (t : rtree) : forall ctx, map snd (locs ctx t) = map (fun s => at_ s) (inners t).
Proof.
  induction t as [lv nm d l r Hl Hr] using tree_induction. intros ctx.
  destruct l as [tl|], r as [tr|]; simpl; auto. rewrite !map_app. simpl. simpl in Hl, Hr.
  rewrite (Hl ctx). f_equal. f_equal. apply Hr.
Qed.
Lemma inners_sub {A} (t : tree A) : forall s, In s (inners t) -> In s (subtrees t).
Proof.
  induction t as [lv nm d l r Hl Hr] using tree_induction. intros s I.
  destruct l as [tl|], r as [tr|]; simpl in I; try contradiction. simpl in Hl, Hr.
  rewrite subtrees_eq. apply in_app_or in I. destruct I as [I|[I|I]].
  - right. apply in_or_app. left. apply Hl. exact I.
  - left. exact I.
  - right. apply in_or_app. right. apply Hr. exact I.
Qed.

Context (eqD : forall x y : tree_data E M, {x = y} + {x <> y}).
Lemma changed_inners (old t : rtree) : inner_named t ->
  changed eqD old t = length (filter (fun s => negb (existsb (tree_same eqD s) (subtrees old))) (inners t)).
Proof.
  change (changed eqD old t) with (news eqD old t).
  induction t as [lv nm d l r Hl Hr] using tree_induction. intros I.
  destruct (inner_named_case _ I) as [(lv' & d' & Q)|(lv' & n & d' & tl & tr & Q & Il & Ir)]; inv Q.
  - reflexivity.
  - simpl in Hl, Hr. rewrite news_eq. cbn [inners]. rewrite filter_app, app_length. cbn [filter].
    rewrite (Hl Il), (Hr Ir). unfold is_new. cbn [has_children andb].
    destruct (negb _); cbn [length]; lia.
Qed.

(** ** Counting *)
(** All but at most [k] members of the list have [P]. *)
Inductive few {X} (P : X -> Prop) : nat -> list X -> Prop :=
| few_nil : few P 0 []
| few_ok k x l : P x -> few P k l -> few P k (x :: l)
| few_skip k x l : few P k l -> few P (S k) (x :: l).
Lemma few_app {X} (P : X -> Prop) a i : few P i a -> forall b j, few P j b -> few P (i + j) (a ++ b).
Proof. induction 1; intros b j H'; simpl; [exact H'|apply few_ok; auto|apply few_skip; auto]. Qed.
Lemma few_impl {X} (P Q : X -> Prop) : (forall x, P x -> Q x) -> forall l k, few P k l -> few Q k l.
Proof. intros H. induction 1; [apply few_nil|apply few_ok; auto|apply few_skip; auto]. Qed.
Lemma few_filter {X Y} (P : X -> Prop) (test : Y -> bool) (R : X -> Y -> Prop) :
  (forall x y, R x y -> P x -> test y = false) -> forall l k, few P k l ->
  forall l', Forall2 R l l' -> length (filter test l') <= k.
Proof.
  intros H. induction 1 as [|k x l Px F IH|k x l F IH]; intros l' F2; inv F2; simpl.
  - auto.
  - rewrite (H _ _ H2 Px). auto.
  - specialize (IH _ H4). destruct (test y); simpl; lia.
Qed.

Lemma lowe_same m (r x y : atoms) : forallb (fun p => (fst p <=? m)%N) (marks r) = false ->
  lowe m (r ++ x) = lowe m (r ++ y).
Proof.
  induction r as [|[e|b n] r IH]; simpl; intros H; [discriminate|now rewrite IH|].
  destruct (N.leb_spec b m); [|reflexivity]. simpl in H. now rewrite IH.
Qed.
Lemma few_before a : forall ctx x y, few (fun z => In z (spans ctx a x)) (seen_from_right a) (spans ctx a y).
Proof.
  induction a as [|[e|m n] a IH]; intros ctx x y; simpl; [apply few_nil|apply IH|].
  assert (Q : few (fun z => In z (spans ctx (Mark m n :: a) x)) (seen_from_right a) (spans (Mark m n :: ctx) a y)).
  { eapply few_impl; [|apply IH]. intros z Z. right. exact Z. }
  destruct (forallb (fun p => (fst p <=? m)%N) (marks a)) eqn:F; simpl.
  - apply few_skip. exact Q.
  - apply few_ok; [|exact Q]. left. now rewrite (lowe_same m a x y F).
Qed.
Lemma few_inside a : forall P ctx y, few P (length (marks a)) (spans ctx a y).
Proof.
  induction a as [|[e|m n] a IH]; intros P ctx y; simpl; [apply few_nil|apply IH|]. apply few_skip, IH.
Qed.

Definition top_of (top : level) (p : atoms) : Prop := top = 0%N \/ exists n, In (Mark top n) p.
Lemma low_same m (p x y : atoms) b n : In (Mark b n) p -> (m <= b)%N -> low m (p ++ x) = low m (p ++ y).
Proof.
  intros I Hm. induction p as [|a p IH]; [contradiction|].
  destruct a as [e|b' n']; simpl.
  - f_equal. apply IH. destruct I as [I|I]; [discriminate|exact I].
  - destruct (N.ltb_spec b' m); [|reflexivity]. f_equal. apply IH. destruct I as [I|I]; [|exact I].
    injection I as -> ->. lia.
Qed.
Lemma few_after b : Forall (fun q => (1 <= fst q)%N) (marks b) -> forall p x y top, top_of top p ->
  few (fun z => In (snd z) (map snd (spans (p ++ x) b []))) (seen_from_left top b) (spans (p ++ y) b []).
Proof.
  induction b as [|[e|m n] b IH]; intros F p x y top T.
  - apply few_nil.
  - cbn [seen_from_left spans marks] in *. change (Elt e :: p ++ x) with ((Elt e :: p) ++ x).
    change (Elt e :: p ++ y) with ((Elt e :: p) ++ y). apply IH; [exact F|].
    destruct T as [T|(n & T)]; [left; exact T|right; exists n; right; exact T].
  - cbn [seen_from_left spans marks] in *. inv F. cbn [fst] in H1.
    assert (Q : forall top', top_of top' (Mark m n :: p) -> forall w,
      few (fun z => In (snd z) (w :: map snd (spans (Mark m n :: p ++ x) b [])))
        (seen_from_left top' b) (spans (Mark m n :: p ++ y) b [])).
    { intros top' T' w. eapply few_impl; [|apply (IH H2 (Mark m n :: p) x y top' T')]. intros z Z. right. exact Z. }
    destruct (N.ltb_spec top m) as [L|L].
    + apply few_skip. apply Q. right. exists n. left. reflexivity.
    + apply few_ok.
      * left. cbn [map snd]. f_equal. f_equal.
        destruct T as [->|(n' & T)]; [lia|]. now apply (low_same m p x y top n').
      * apply Q. destruct T as [T|(n' & T)]; [left; exact T|right; exists n'; right; exact T].
Qed.

(** ** The nodes an edit changes *)
Lemma marks_pos_tree (t : rtree) : tree_ok t -> Forall (fun q => (1 <= fst q)%N) (marks (at_ t)).
Proof.
  induction t as [lv nm d l r Hl Hr] using tree_induction. intros O.
  destruct (tree_ok_case _ O) as [(v & X & Hv)|(lv' & nm' & ml & mr & tl & tr & X & Lv & _ & _ & Kl & Kr)]; inv X.
  - change (Node 0%N None (Leaf v) None None) with (leaf_of (M := M) v). rewrite tree_atoms_leaf, marks_elts. constructor.
  - rewrite tree_atoms_branch, marks_app. apply Forall_app. simpl in Hl, Hr. split; [auto|]. constructor; auto.
Qed.
Lemma spans_whole (t : rtree) : tree_ok t -> conventional t -> spans [] (at_ t) [] = locs [] t.
Proof. intros O C. apply spans_tree; simpl; auto. Qed.
Lemma span_old (old s : rtree) : tree_ok old -> conventional old -> tree_ok s -> conventional s ->
  In (at_ s) (map snd (spans [] (at_ old) [])) -> In s (subtrees old).
Proof.
  intros O C Os Cs I. rewrite (spans_whole _ O C), locs_inners in I. apply in_map_iff in I.
  destruct I as (u & Eq & I). apply inners_sub in I.
  assert (u = s) as <-; [|exact I]. apply tree_unique; auto; [eapply subtrees_ok|eapply subtrees_conv]; eauto.
Qed.
Lemma map_Forall2 {X Y Z} (f : X -> Z) (g : Y -> Z) a : forall b, map f a = map g b -> Forall2 (fun x y => f x = g y) a b.
Proof. induction a; intros [|y b] H; simpl in H; try discriminate; constructor; [|apply IHa]; congruence. Qed.
Lemma Forall2_and {X Y} (R : X -> Y -> Prop) (Q : Y -> Prop) a b : Forall2 R a b -> Forall Q b -> Forall2 (fun x y => R x y /\ Q y) a b.
Proof. induction 1; intros F; inv F; constructor; auto. Qed.

Theorem changed_bound (old t : rtree) pre mid mid' post :
  tree_ok old -> conventional old -> tree_ok t -> conventional t -> inner_named t ->
  at_ old = pre ++ mid ++ post -> at_ t = pre ++ mid' ++ post ->
  changed eqD old t <= seen_from_right pre + length (marks mid') + seen_from_left 0%N post.
Proof.
  intros Oo Co Ot Ct I Eo Et. rewrite (changed_inners old t I).
  set (P := fun z : atoms * atoms => In (snd z) (map snd (spans [] (at_ old) []))).
  assert (F : few P (seen_from_right pre + length (marks mid') + seen_from_left 0%N post) (spans [] (at_ t) [])).
  { rewrite Et, !spans_app, <- Nat.add_assoc, !app_nil_r. apply few_app; [|apply few_app].
    - eapply few_impl; [|apply (few_before pre [] (mid ++ post))]. intros z Z. unfold P.
      rewrite Eo, spans_app, app_nil_r. rewrite map_app. apply in_or_app. left. apply in_map. exact Z.
    - apply few_inside.
    - eapply few_impl; [|apply (few_after post) with (p := []) (x := rev mid ++ rev pre)].
      + intros z Z. unfold P. rewrite Eo, !spans_app, !map_app, !app_nil_r. apply in_or_app. right.
        apply in_or_app. right. exact Z.
      + pose proof (marks_pos_tree t Ot) as Q. rewrite Et, !marks_app in Q.
        apply Forall_app in Q. destruct Q as [_ Q]. apply Forall_app in Q. tauto.
      + left. reflexivity. }
  rewrite (spans_whole t Ot Ct) in F.
  assert (F1 : Forall (fun s => tree_ok s /\ conventional s) (inners t)).
  { apply Forall_forall. intros s Is. apply inners_sub in Is.
    split; [eapply subtrees_ok|eapply subtrees_conv]; eauto. }
  pose proof (Forall2_and _ _ _ _ (map_Forall2 _ _ _ _ (locs_inners t [])) F1) as F2.
  refine (few_filter P _ _ _ _ _ F _ F2).
  intros x s (Eq & Os & Cs) Px. apply negb_false_iff. apply is_old. apply span_old; auto. rewrite <- Eq. exact Px.
Qed.
End MemoRaz.
