(** * Left-to-right folds whose accumulator forgets at archive points: the part after an
    edit is not run again either. *)

From Verif Require Import Base BaseFacts Spec SpecRaz LevelTreeModel TreeSpec TreeProofs TreeCursorModel
  RazMetaModel RazModel CursorProofs RazView RazScripts RazProofs RazFocus RazReach
  MemoModel MemoSpec MemoProofs MemoCost MemoRaz MemoLR MemoHistory.

Section Reset.
Context {E M R : Type} {RM : RazMeta E M}.
Context (eqD : forall x y : tree_data E M, {x = y} + {x <> y}) (eqR : forall x y : R, {x = y} + {x <> y}).
Context (f : R -> tree_data E M -> level -> option name -> R).
Context (g : R -> level -> option name -> R) (f_g : forall a x y lv nm, f a (Branch x y) lv nm = g a lv nm).
Notation rtree := (tree (tree_data E M)).
Notation atoms := (list (atom E level)).
Notation at_ t := (tree_atoms (Some t)).

(** Elements before every archive point. *)
Fixpoint spaced (b : bool) (l : atoms) : Prop :=
  match l with
  | [] => True
  | Elt _ :: r => spaced true r
  | Mark _ _ :: r => b = true /\ spaced false r
  end.
Lemma spaced_elts v : forall b r, v <> [] -> spaced true r -> spaced b (map Elt v ++ r).
Proof. induction v as [|e v IH]; intros b r Ne H; [congruence|]. simpl. destruct v as [|e' v]; [exact H|]. apply IH; [discriminate|exact H]. Qed.
Lemma spaced_tree (t : rtree) : tree_ok t -> forall b r, spaced true r -> spaced b (at_ t ++ r).
Proof.
  induction t as [lv nm d l r Hl Hr] using tree_induction. intros O b rest H.
  destruct (tree_ok_case _ O) as [(v & X & Hv)|(lv' & nm' & ml & mr & tl & tr & X & Lv & _ & _ & Kl & Kr)]; inv X.
  - change (at_ (Node 0%N None (Leaf v) None None)) with (at_ (leaf_of (M := M) v)). rewrite tree_atoms_leaf. now apply spaced_elts.
  - rewrite tree_atoms_branch, <- app_assoc. cbn [app]. simpl in Hl, Hr. apply (Hl Kl). split; [reflexivity|]. now apply (Hr Kr).
Qed.
Lemma spaced_prefix l : forall b r, spaced b (l ++ r) -> spaced b l.
Proof. induction l as [|[e|m n] l IH]; intros b r; simpl; [auto|apply IH|]. intros [-> H]. split; [reflexivity|]. eapply IH; eauto. Qed.

Notation go := (go f g).
Lemma go_last l : forall s a cur m n, spaced (match cur with [] => false | _ => true end) (l ++ [Mark m n]) ->
  exists a1 s1 v, v <> [] /\ go s a cur (l ++ [Mark m n]) = (n, g (f a1 (Leaf v) 0%N s1) m n).
Proof.
  induction l as [|[e|m' n'] l IH]; intros s a cur m n; cbn [app spaced MemoLR.go].
  - intros [Q _]. exists a, s, cur. split; [destruct cur; congruence|reflexivity].
  - intros H. apply IH. now destruct cur.
  - intros [_ H]. apply IH. exact H.
Qed.

(** Spans after the edit: the same atoms, and the same archive point just before. *)
Lemma spans_prefix (l : atoms) : forall ctx rest z, In z (spans ctx l rest) -> exists r, rev ctx ++ l = fst z ++ r.
Proof.
  induction l as [|[e|m n] l IH]; intros ctx rest z I; [contradiction| |].
  - destruct (IH _ _ _ I) as [r H]. exists r. rewrite <- H. cbn [rev]. now rewrite <- app_assoc.
  - destruct I as [<-|I].
    + cbn [fst]. exists (rev (low m ctx) ++ Mark m n :: l).
      assert (Q : ctx = low m ctx ++ high m ctx).
      { clear. induction ctx as [|[e|b k] c IH]; simpl; [reflexivity|congruence|]. destruct (b <? m)%N; simpl; congruence. }
      rewrite Q at 1. now rewrite rev_app_distr, <- app_assoc.
    + destruct (IH _ _ _ I) as [r H]. exists r. rewrite <- H. cbn [rev]. now rewrite <- app_assoc.
Qed.
Lemma high_same m (p x y : atoms) b n : In (Mark b n) p -> (m <= b)%N ->
  exists b' n' p', high m (p ++ x) = Mark b' n' :: p' ++ x /\ high m (p ++ y) = Mark b' n' :: p' ++ y.
Proof.
  intros I Hm. induction p as [|a p IH]; [contradiction|].
  destruct a as [e|b' n']; simpl.
  - apply IH. destruct I as [I|I]; [discriminate|exact I].
  - destruct (N.ltb_spec b' m) as [L|L]; [|eauto]. apply IH. destruct I as [I|I]; [|exact I]. injection I as -> ->. lia.
Qed.
Definition alike_spans (x y : atoms) (z' z : atoms * atoms) : Prop :=
  snd z' = snd z /\ exists b n p, fst z' = rev (p ++ x) ++ [Mark b n] /\ fst z = rev (p ++ y) ++ [Mark b n].
Lemma few_behind (b : atoms) : Forall (fun q => (1 <= fst q)%N) (marks b) -> forall p x y top, top_of top p ->
  few (fun z => exists z', In z' (spans (p ++ x) b []) /\ alike_spans x y z' z) (seen_from_left top b) (spans (p ++ y) b []).
Proof.
  induction b as [|[e|m n] b IH]; intros F p x y top T.
  - apply few_nil.
  - cbn [seen_from_left spans marks] in *. change (Elt e :: p ++ x) with ((Elt e :: p) ++ x).
    change (Elt e :: p ++ y) with ((Elt e :: p) ++ y). apply IH; [exact F|].
    destruct T as [T|(n & T)]; [left; exact T|right; exists n; right; exact T].
  - cbn [seen_from_left spans marks] in *. inv F. cbn [fst] in H1.
    assert (Q : forall top', top_of top' (Mark m n :: p) -> forall w,
      few (fun z => exists z', In z' (w :: spans (Mark m n :: p ++ x) b []) /\ alike_spans x y z' z)
        (seen_from_left top' b) (spans (Mark m n :: p ++ y) b [])).
    { intros top' T' w. eapply few_impl; [|apply (IH H2 (Mark m n :: p) x y top' T')]. intros z (z' & Z & Z'). exists z'. split; [right; exact Z|exact Z']. }
    destruct (N.ltb_spec top m) as [L|L].
    + apply few_skip. apply Q. right. exists n. left. reflexivity.
    + apply few_ok.
      * eexists. split; [left; reflexivity|]. destruct T as [->|(n' & T)]; [lia|]. unfold alike_spans. cbn [fst snd].
        split; [now rewrite (low_same m p x y top n' T L)|].
        destruct (high_same m p x y top n' T L) as (b' & n2 & p' & -> & ->). exists b', n2, p'. split; reflexivity.
      * apply Q. destruct T as [T|(n' & T)]; [left; exact T|right; exists n'; right; exact T].
Qed.

Lemma few_in {X} (P : X -> Prop) k l : few P k l -> few (fun z => In z l /\ P z) k l.
Proof.
  induction 1 as [|k x l Px F IH|k x l F IH]; [apply few_nil|apply few_ok|apply few_skip].
  - split; [now left|exact Px].
  - eapply few_impl; [|exact IH]. intros z [Z1 Z2]. split; [now right|exact Z2].
  - eapply few_impl; [|exact IH]. intros z [Z1 Z2]. split; [now right|exact Z2].
Qed.

Context (s0 : option name) (a0 : R).
(** After the edit the accumulators agree at every archive point. *)
Definition settled (pre mid mid' post : atoms) : Prop := forall l m n r, post = l ++ Mark m n :: r ->
  go s0 a0 [] (pre ++ mid ++ l ++ [Mark m n]) = go s0 a0 [] (pre ++ mid' ++ l ++ [Mark m n]).
Theorem settled_changed_bound (old t : rtree) pre mid mid' post :
  tree_ok old -> conventional old -> tree_ok t -> conventional t -> inner_named t ->
  at_ old = pre ++ mid ++ post -> at_ t = pre ++ mid' ++ post -> settled pre mid mid' post ->
  changed (eqN eqD eqR) (annot f old s0 a0) (annot f t s0 a0) <=
    seen_from_right pre + length (marks mid') + seen_from_left 0%N post.
Proof.
  intros Oo Co Ot Ct I Eo Et Se. rewrite inners_changed by now apply annot_inner.
  set (P := fun z : atoms * atoms => exists z', In z' (spans [] (at_ old) []) /\ snd z' = snd z /\
    go s0 a0 [] (fst z') = go s0 a0 [] (fst z)).
  assert (F : few P (seen_from_right pre + length (marks mid') + seen_from_left 0%N post) (spans [] (at_ t) [])).
  { unfold P. rewrite Eo, Et in *. rewrite !spans_app, <- Nat.add_assoc, !app_nil_r. apply few_app; [|apply few_app].
    - eapply few_impl; [|apply (few_before pre [] (mid ++ post))]. intros z Z. exists z. split; [|auto].
      apply in_or_app. left. exact Z.
    - apply few_inside.
    - eapply few_impl; [|apply few_in, (few_behind post) with (p := []) (x := rev mid ++ rev pre) (y := rev mid' ++ rev pre)].
      + intros z [I2 (z' & I' & E1 & b & n & p & E2 & E3)]. cbn [app] in I', I2.
        destruct (spans_prefix _ _ _ _ I') as [r' K'].
        rewrite E2, !rev_app_distr, !rev_involutive, <- !app_assoc in K'. apply app_inv_head in K'. apply app_inv_head in K'.
        exists z'. split; [apply in_or_app; right; apply in_or_app; right; rewrite <- ?app_assoc; exact I'|]. split; [exact E1|].
        rewrite E2, E3, !rev_app_distr, !rev_involutive, <- !app_assoc. exact (Se (rev p) b n r' K').
      + pose proof (marks_pos_tree t Ot) as Q. rewrite Et, !marks_app in Q.
        apply Forall_app in Q. destruct Q as [_ Q]. apply Forall_app in Q. tauto.
      + left. reflexivity. }
  rewrite (spans_whole t Ot Ct) in F.
  pose proof (annot_spans f g f_g s0 a0 t Ot Ct [] s0 a0 (fun x => eq_refl)) as F2.
  refine (few_filter P _ _ _ _ _ F _ F2).
  intros z u (t1 & -> & E1 & O1 & C1) (z' & Pz & Es & Eg). apply negb_false_iff, is_old.
  rewrite (spans_whole old Oo Co) in Pz.
  pose proof (annot_spans f g f_g s0 a0 old Oo Co [] s0 a0 (fun x => eq_refl)) as F3.
  assert (Q : exists u, In u (inners (annot f old s0 a0)) /\ at_span f g s0 a0 z' u).
  { clear - F3 Pz. induction F3; [contradiction|]. destruct Pz as [->|Pz].
    - exists y. split; [left; reflexivity|exact H].
    - destruct (IHF3 Pz) as (u & Iu & Su). exists u. split; [right; exact Iu|exact Su]. }
  destruct Q as (u & Iu & t2 & -> & E2 & O2 & C2). rewrite Eg in Iu.
  assert (t2 = t1) as <- by (apply tree_unique; auto; congruence).
  apply inners_sub. exact Iu.
Qed.

Lemma go_mark l : forall s a cur m n r, go s a cur (l ++ Mark m n :: r) =
  go (fst (go s a cur (l ++ [Mark m n]))) (snd (go s a cur (l ++ [Mark m n]))) [] r.
Proof. induction l as [|[e|m' n'] l IH]; intros s a cur m n r; cbn [app MemoLR.go fst snd]; [reflexivity|apply IH|apply IH]. Qed.
(** It is enough that they agree at the first one. *)
Lemma settled_first pre mid mid' post :
  (forall v m n r, post = map Elt v ++ Mark m n :: r ->
    go s0 a0 [] (pre ++ mid ++ map Elt v ++ [Mark m n]) = go s0 a0 [] (pre ++ mid' ++ map Elt v ++ [Mark m n])) ->
  settled pre mid mid' post.
Proof.
  intros H l m n r Q.
  assert (Sp : forall x : atoms, (exists v, x = map Elt v) \/ exists v m n y, x = map Elt v ++ Mark m n :: y).
  { induction x as [|[e|m1 n1] x [(v & ->)|(v & m2 & n2 & y & ->)]].
    - left. exists []. reflexivity.
    - left. exists (e :: v). reflexivity.
    - right. exists (e :: v), m2, n2, y. reflexivity.
    - right. exists [], m1, n1, (map Elt v). reflexivity.
    - right. exists [], m1, n1, (map Elt v ++ Mark m2 n2 :: y). reflexivity. }
  destruct (Sp l) as [(v & ->)|(v & m1 & n1 & y & ->)]; [exact (H v m n r Q)|].
  rewrite <- app_assoc in Q. cbn [app] in Q. specialize (H v m1 n1 _ Q).
  assert (As : forall w z : atoms, pre ++ w ++ map Elt v ++ z = (pre ++ w ++ map Elt v) ++ z) by (intros w z; now rewrite <- !app_assoc).
  rewrite <- !app_assoc. cbn [app]. rewrite !As in *. rewrite (go_mark (pre ++ mid ++ map Elt v)), (go_mark (pre ++ mid' ++ map Elt v)). now rewrite H.
Qed.
(** So they do where archive points forget. *)
Lemma settled_reset (old t : rtree) pre mid mid' post :
  (forall a a' v v' s s' m n, v <> [] -> v' <> [] -> g (f a (Leaf v) 0%N s) m (Some n) = g (f a' (Leaf v') 0%N s') m (Some n)) ->
  tree_ok old -> tree_ok t -> (forall p, In p (marks (at_ t)) -> snd p <> None) ->
  at_ old = pre ++ mid ++ post -> at_ t = pre ++ mid' ++ post -> settled pre mid mid' post.
Proof.
  intros reset Oo Ot Na Eo Et l m n r ->.
  pose proof (spaced_tree old Oo false [] Logic.I) as So. pose proof (spaced_tree t Ot false [] Logic.I) as St. rewrite app_nil_r, ?Eo, ?Et in *.
  assert (Nn : n <> None).
  { apply (Na (m, n)). rewrite !marks_app, !in_app_iff. right. right. right. now left. }
  destruct n as [n|]; [|congruence].
  change (Mark m (Some n) :: r) with ([Mark m (Some n)] ++ r) in So, St. rewrite !app_assoc in So, St. apply spaced_prefix in So, St.
  rewrite !app_assoc. destruct (go_last _ s0 a0 [] m (Some n) So) as (a1 & s1 & v1 & V1 & ->).
  destruct (go_last _ s0 a0 [] m (Some n) St) as (a2 & s2 & v2 & V2 & ->). f_equal. now apply reset.
Qed.
End Reset.

Section Cost.
Context {E M R : Type} {RM : RazMeta E M}.
Context (eqD : forall x y : tree_data E M, {x = y} + {x <> y}) (eqR : forall x y : R, {x = y} + {x <> y}).
Theorem settled_cost (t t' : raz_tree E M) older pre mid mid' post (f : R -> tree_data E M -> level -> option name -> R)
    (g : R -> level -> option name -> R) init rs T lgs x T' lg :
  Forall (fun t => tree_reached false t) (t' :: t :: older) -> orderly_points (map contents (t' :: t :: older)) ->
  contents t = pre ++ mid ++ post -> contents t' = pre ++ mid' ++ post ->
  (forall a p q lv nm, f a (Branch p q) lv nm = g a lv nm) ->
  settled f g (Some (NStr "start")) init pre mid mid' post ->
  runs (m_rt_lr eqD eqR f init) (rev (t :: older)) no_memos = Ok (rs, T, lgs) ->
  m_rt_lr eqD eqR f init t' T = Ok (x, T', lg) ->
  length lg <= 1 + 2 * (seen_from_right pre + length (marks mid') + seen_from_left 0%N post).
Proof.
  intros Re Op C C' Hg Se. apply (lr_cost_within eqD t t' older pre mid mid' post Re Op C C'). intros tr tr' Et Et' In'.
  pose proof (MemoHistory.reached_ok t t' older Re) as Rok.
  pose proof (reached_conv t t' older Re t' (or_introl eq_refl)) as Cv'. pose proof (reached_conv t t' older Re t (or_intror (or_introl eq_refl))) as Cv.
  inversion Rok as [|? ? O' Rok']. inversion Rok' as [|? ? O _].
  unfold contents in C, C'. rewrite Et, Et' in *.
  exact (settled_changed_bound eqD eqR f g Hg _ init tr tr' pre mid mid' post O Cv O' Cv' In' C C' Se).
Qed.
(** The condition, for folds that forget at archive points. *)
Lemma reset_settled (t t' : raz_tree E M) older pre mid mid' post (f : R -> tree_data E M -> level -> option name -> R)
    (g : R -> level -> option name -> R) init :
  Forall (fun t => tree_reached false t) (t' :: t :: older) -> orderly_points (map contents (t' :: t :: older)) ->
  contents t = pre ++ mid ++ post -> contents t' = pre ++ mid' ++ post ->
  (forall a a' v v' s s' m n, v <> [] -> v' <> [] -> g (f a (Leaf v) 0%N s) m (Some n) = g (f a' (Leaf v') 0%N s') m (Some n)) ->
  settled f g (Some (NStr "start")) init pre mid mid' post.
Proof.
  intros Re Op C C' Hr. pose proof (MemoHistory.reached_ok t t' older Re) as Rok.
  inversion Rok as [|? ? O' Rok']. inversion Rok' as [|? ? O _].
  pose proof (proj1 (proj2 Op)) as Na. unfold contents in C, C', Na.
  destruct (rt_tree t) as [tr|]; destruct (rt_tree t') as [tr'|].
  - exact (settled_reset f g _ init tr tr' pre mid mid' post Hr O O' Na C C').
  - symmetry in C'. apply app_eq_nil in C'. destruct C' as [_ C']. apply app_eq_nil in C'. destruct C' as [_ ->].
    intros k m n r Q. destruct k; discriminate.
  - symmetry in C. apply app_eq_nil in C. destruct C as [_ C]. apply app_eq_nil in C. destruct C as [_ ->].
    intros k m n r Q. destruct k; discriminate.
  - symmetry in C. apply app_eq_nil in C. destruct C as [_ C]. apply app_eq_nil in C. destruct C as [_ ->].
    intros k m n r Q. destruct k; discriminate.
Qed.
End Cost.
