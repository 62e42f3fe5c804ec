(** * Proofs about the memoised left-to-right fold: the part before an edit is not run
    again.

    A left-to-right fold is the bottom-up fold of the tree in which every node also
    holds the start name and the accumulator it was called with. *)

From Verif Require Import Base BaseFacts Spec SpecRaz LevelTreeModel TreeSpec TreeProofs TreeCursorModel
  RazMetaModel RazModel CursorProofs RazView RazProofs RazFocus MemoModel MemoSpec MemoProofs MemoCost MemoRaz.

Section Annot.
Context {A R : Type} (eqA : forall x y : A, {x = y} + {x <> y}) (eqR : forall x y : R, {x = y} + {x <> y}).
Context (f : R -> A -> level -> option name -> R).
Notation note := (A * (option name * R))%type.
Notation fold := (m_fold_lr_meta eqA eqR f).
Notation pure := (t_fold_lr_meta f).
Notation key := (tree A * option name * R)%type.

Definition eqN : forall x y : note, {x = y} + {x <> y}.
Proof. intros [a [s r]] [a' [s' r']]. destruct (eqA a a'), (oname_eq_dec s s'), (eqR r r'); (left; congruence) || (right; congruence). Defined.

Fixpoint annot (t : tree A) (s : option name) (a : R) : tree note :=
  match t with
  | Node lv nm d l r =>
      let a1 := match l with None => a | Some t1 => pure t1 s a end in
      Node lv nm (d, (s, a))
        match l with None => None | Some t1 => Some (annot t1 s a) end
        match r with None => None | Some t2 => Some (annot t2 nm (f a1 d lv nm)) end
  end.
Fixpoint erase (t : tree note) : tree A :=
  match t with
  | Node lv nm d l r =>
      Node lv nm (fst d) match l with None => None | Some t1 => Some (erase t1) end
        match r with None => None | Some t2 => Some (erase t2) end
  end.
Lemma erase_annot t : forall s a, erase (annot t s a) = t.
Proof.
  induction t as [lv nm d l r Hl Hr] using tree_induction. intros s a. simpl.
  destruct l, r; simpl in *; rewrite ?Hl, ?Hr; reflexivity.
Qed.
Lemma annot_inj t s a t' s' a' : annot t s a = annot t' s' a' -> (t, s, a) = (t', s', a').
Proof.
  intros H. assert (Q : t = t') by (rewrite <- (erase_annot t s a), H; apply erase_annot). subst t'.
  destruct t; simpl in H. injection H as -> ->. reflexivity.
Qed.
Lemma annot_names t : forall s a, names (annot t s a) = names t.
Proof.
  induction t as [lv nm d l r Hl Hr] using tree_induction. intros s a. cbn [annot]. rewrite !names_eq.
  destruct l, r; simpl in *; rewrite ?Hl, ?Hr; reflexivity.
Qed.
Lemma annot_inner t : forall s a, inner_named t -> inner_named (annot t s a).
Proof.
  intros s a H lv nm d l r I.
  assert (Q : In (erase (Node lv nm d l r)) (subtrees t)).
  { clear H. revert s a I. induction t as [lv' nm' d' l' r' Hl Hr] using tree_induction. intros s a I.
    pose proof (erase_annot (Node lv' nm' d' l' r') s a) as Er. cbn [annot] in I, Er. rewrite subtrees_eq in I.
    destruct I as [I|I]; [left; rewrite <- I; symmetry; exact Er|].
    rewrite subtrees_eq. right. apply in_app_or in I. apply in_or_app. destruct I as [I|I].
    - left. destruct l'; [|contradiction]. simpl in *. eauto.
    - right. destruct r'; [|contradiction]. simpl in *. eauto. }
  cbn [erase] in Q. apply H in Q. destruct nm, l, r; simpl in *; intuition congruence.
Qed.

(** The node function. *)
Definition up (rl : option R) (d : note) (lv : level) (nm : option name) (rr : option R) : res R :=
  let '(x, (s, a)) := d in
  Ok match rl, rr with
     | None, None => f a x lv s
     | _, Some y => y
     | Some y, None => f y x lv nm
     end.
Notation ufold := (m_fold_up_meta eqN up).

(** Tables with the same entries. *)
Definition rel (T : mtab key R) (T' : mtab (tree note) R) : Prop :=
  forall n, T' n = option_map (fun e => let '((t, s, a), r) := e in (annot t s a, r)) (T n).
Lemma rel_set T T' n t s a r : rel T T' -> rel (memo_set T n (t, s, a) r) (memo_set T' n (annot t s a) r).
Proof. intros H m. unfold memo_set. destruct (name_eq_dec m n); [reflexivity|apply H]. Qed.
Lemma same_annot t s a t' s' a' : tree_same eqN (annot t s a) (annot t' s' a') = lr_same eqA eqR (t, s, a) (t', s', a').
Proof.
  apply eq_true_iff_eq. rewrite tree_same_eq. split.
  - intros H. apply annot_inj in H. injection H as -> -> ->. unfold lr_same. simpl.
    rewrite (proj2 (tree_same_eq eqA t' t') eq_refl). destruct (oname_eq_dec s' s'); [|contradiction]. destruct (eqR a' a'); [reflexivity|contradiction].
  - intros H. apply lr_same_eq in H. congruence.
Qed.

Lemma lr_sim (t : tree A) : forall s a T T' r T1 lg, sound (lr_pure f) T -> rel T T' ->
  fold t s a T = Ok (r, T1, lg) ->
  exists T1' lg', ufold (annot t s a) T' = Ok (r, T1', lg') /\ rel T1 T1' /\ length lg = length lg'.
Proof.
  induction t as [lv nm d l r Hl Hr] using tree_induction. intros s a T T' x T1 lg S RT H.
  (* a memoised call *)
  assert (Call : forall n t1, (forall s a T T' r T1 lg, sound (lr_pure f) T -> rel T T' -> fold t1 s a T = Ok (r, T1, lg) ->
      exists T1' lg', ufold (annot t1 s a) T' = Ok (r, T1', lg') /\ rel T1 T1' /\ length lg = length lg') ->
    forall s a T T' r T1 lg, sound (lr_pure f) T -> rel T T' ->
    memo_opt (lr_same eqA eqR) n (t1, s, a) (fold t1 s a) T = Ok (r, T1, lg) ->
    exists T1' lg', memo_opt (tree_same eqN) n (annot t1 s a) (ufold (annot t1 s a)) T' = Ok (r, T1', lg') /\
      rel T1 T1' /\ length lg = length lg').
  { intros [n|] t1 IH s1 a1 T2 T2' r1 T3 lg3 S2 R2 C; [|exact (IH _ _ _ _ _ _ _ S2 R2 C)].
    cbn [memo_opt] in *. unfold memo in *.
    assert (Run : (do ' (r, tab', lg) <- fold t1 s1 a1 T2; Ok (r, memo_set tab' n (t1, s1, a1) r, lg)) = Ok (r1, T3, lg3) ->
      exists T1' lg', (do ' (r, tab', lg) <- ufold (annot t1 s1 a1) T2'; Ok (r, memo_set tab' n (annot t1 s1 a1) r, lg)) = Ok (r1, T1', lg') /\
      rel T3 T1' /\ length lg3 = length lg').
    { intros Q. apply bind_Ok in Q. destruct Q as ([[x1 T4] lg4] & Q & Z). inv Z.
      destruct (IH _ _ _ _ _ _ _ S2 R2 Q) as (T4' & lg4' & Q' & R4 & L4). rewrite Q'. cbn [bind].
      eexists _, _. split; [reflexivity|]. split; [apply rel_set; exact R4|exact L4]. }
    rewrite (R2 n). destruct (T2 n) as [[[[t' s'] a'] r']|]; cbn [option_map]; [|exact (Run C)].
    rewrite same_annot. destruct (lr_same eqA eqR (t1, s1, a1) (t', s', a')); [|exact (Run C)].
    inv C. eexists _, _. split; [reflexivity|]. auto. }
  assert (Sc : forall n t1 s a T, sound (lr_pure f) T -> forall r T1 lg,
    memo_opt (lr_same eqA eqR) n (t1, s, a) (fold t1 s a) T = Ok (r, T1, lg) -> r = pure t1 s a /\ sound (lr_pure f) T1).
  { intros n t1 s1 a1 T2 S2 r1 T3 lg3 C.
    destruct (sound_memo_opt (lr_same eqA eqR) (lr_same_eq eqA eqR) (lr_pure f) n (t1, s1, a1) (fold t1 s1 a1)
      (fold_lr_sound eqA eqR f t1 s1 a1) T2 S2) as (Ca & Cs).
    rewrite C in Ca. cbn [answer] in Ca. unfold lr_pure in Ca. injection Ca as ->. split; [reflexivity|eauto]. }
  cbn [annot]. cbn [m_fold_lr_meta] in H.
  destruct l as [tl|], r as [tr|]; cbn [bind] in H.
  - apply bind_Ok in H. destruct H as ([[a1 T2] lg1] & H1 & H).
    apply bind_Ok in H. destruct H as ([[a3 T3] lg2] & H2 & Z). inv Z.
    destruct (Sc _ _ _ _ _ S _ _ _ H1) as (-> & S2).
    destruct (Call _ tl Hl _ _ _ _ _ _ _ S RT H1) as (T2' & lg1' & H1' & R2 & L1).
    destruct (Call _ tr Hr _ _ _ _ _ _ _ S2 R2 H2) as (T3' & lg2' & H2' & R3 & L2).
    cbn [m_fold_up_meta]. rewrite H1'. cbn [bind]. rewrite H2'. cbn [bind up].
    eexists _, _. split; [reflexivity|]. split; [exact R3|]. cbn [length]. rewrite !app_length. lia.
  - apply bind_Ok in H. destruct H as ([[a1 T2] lg1] & H1 & H). cbn [bind] in H. inv H.
    destruct (Sc _ _ _ _ _ S _ _ _ H1) as (-> & S2).
    destruct (Call _ tl Hl _ _ _ _ _ _ _ S RT H1) as (T2' & lg1' & H1' & R2 & L1).
    cbn [m_fold_up_meta]. rewrite H1'. cbn [bind up].
    eexists _, _. split; [reflexivity|]. split; [exact R2|]. cbn [length]. rewrite !app_length. simpl. lia.
  - apply bind_Ok in H. destruct H as ([[a3 T3] lg2] & H2 & Z). inv Z.
    destruct (Call _ tr Hr _ _ _ _ _ _ _ S RT H2) as (T3' & lg2' & H2' & R3 & L2).
    cbn [m_fold_up_meta bind]. rewrite H2'. cbn [bind up].
    eexists _, _. split; [reflexivity|]. split; [exact R3|]. simpl. auto.
  - inv H. cbn [m_fold_up_meta bind up]. eexists _, _. split; [reflexivity|]. auto.
Qed.

(** Histories. *)
Context (s0 : option name) (a0 : R).
Notation top t := (annot t s0 a0).
Lemma orderly_annot hist : orderly hist -> orderly (map (fun t => top t) hist).
Proof.
  induction hist as [|t older IH]; [auto|]. cbn [orderly map]. intros (O & I & N & F). split; [auto|].
  split; [now apply annot_inner|]. split; [now rewrite annot_names|]. intros n Hn. rewrite annot_names in Hn.
  specialize (F n Hn). destruct older as [|p older]; [exact Logic.I|]. cbn [map]. rewrite annot_names.
  destruct F as [F|F]; [auto|]. right. intros u Iu. change (top p :: map (fun t => top t) older) with (map (fun t => top t) (p :: older)) in Iu.
  apply in_map_iff in Iu. destruct Iu as (u' & <- & Iu). rewrite annot_names. auto.
Qed.
Lemma runs_annot ts : forall T T' rs T1 lgs, sound (lr_pure f) T -> rel T T' ->
  runs (fun t => fold t s0 a0) ts T = Ok (rs, T1, lgs) ->
  exists T1' lgs', runs ufold (map (fun t => top t) ts) T' = Ok (rs, T1', lgs') /\ rel T1 T1' /\ sound (lr_pure f) T1.
Proof.
  induction ts as [|t ts IH]; simpl; intros T T' rs T1 lgs S RT H.
  - inv H. eauto.
  - apply bind_Ok in H. destruct H as ([[y T2] lg] & F & H).
    apply bind_Ok in H. destruct H as ([[ys T3] lgs3] & H & Z). inv Z.
    destruct (lr_sim t _ _ _ _ _ _ _ S RT F) as (T2' & lg' & F' & R2 & L2). rewrite F'. cbn [bind].
    assert (S2 : sound (lr_pure f) T2) by (eapply (fold_lr_sound eqA eqR f t s0 a0); eauto).
    destruct (IH _ _ _ _ _ S2 R2 H) as (T3' & lgs' & H' & R3 & S3). rewrite H'. cbn [bind]. eauto 8.
Qed.
Theorem lr_history_cost t t' older rs T lgs x T' lg : orderly (t' :: t :: older) ->
  runs (fun t => fold t s0 a0) (rev (t :: older)) no_memos = Ok (rs, T, lgs) -> fold t' s0 a0 T = Ok (x, T', lg) ->
  length lg <= 1 + 2 * changed eqN (top t) (top t').
Proof.
  intros O H F.
  assert (S0 : sound (lr_pure f) no_memos) by (intros n k r Q; discriminate).
  assert (R0 : rel no_memos no_memos) by (intros n; reflexivity).
  destruct (runs_annot _ _ _ _ _ _ S0 R0 H) as (T1' & lgs' & H' & R1 & S1).
  destruct (lr_sim _ _ _ _ _ _ _ _ S1 R1 F) as (T2' & lg' & F' & _ & L). rewrite L.
  rewrite map_rev in H'. eapply history_cost; [|exact H'|exact F'].
  apply (orderly_annot (t' :: t :: older) O).
Qed.
End Annot.

Section Raz.
Context {E M R : Type} {RM : RazMeta E M}.
Context (eqD : forall x y : tree_data E M, {x = y} + {x <> y}) (eqR : forall x y : R, {x = y} + {x <> y}).
Context (f : R -> tree_data E M -> level -> option name -> R).
(** The accumulator after an archive point does not depend on its metadata. *)
Context (g : R -> level -> option name -> R) (f_g : forall a x y lv nm, f a (Branch x y) lv nm = g a lv nm).
Notation rtree := (tree (tree_data E M)).
Notation atoms := (list (atom E level)).
Notation at_ t := (tree_atoms (Some t)).
Notation pure := (t_fold_lr_meta f).

(** Start name and accumulator after some atoms; [cur] are the elements of the run. *)
Fixpoint go (s : option name) (a : R) (cur : list E) (l : atoms) : option name * R :=
  match l with
  | [] => (s, a)
  | Elt e :: r => go s a (cur ++ [e]) r
  | Mark m n :: r => go n (g (f a (Leaf cur) 0%N s) m n) [] r
  end.
Lemma go_elts v : forall s a cur r, go s a cur (map Elt v ++ r) = go s a (cur ++ v) r.
Proof.
  induction v as [|e v IH]; intros s a cur r; simpl; [now rewrite app_nil_r|]. now rewrite IH, <- app_assoc.
Qed.
Lemma go_tree (t : rtree) : tree_ok t -> forall s a m n r,
  go s a [] (at_ t ++ Mark m n :: r) = go n (g (pure t s a) m n) [] r.
Proof.
  induction t as [lv nm d l r Hl Hr] using tree_induction. intros O s a m n rest.
  destruct (tree_ok_case _ O) as [(v & X & Hv)|(lv' & nm' & ml & mr & tl & tr & X & Lv & _ & _ & Kl & Kr)]; inv X.
  - change (at_ (Node 0%N None (Leaf v) None None)) with (at_ (leaf_of (M := M) v)). rewrite tree_atoms_leaf, go_elts. reflexivity.
  - rewrite tree_atoms_branch, <- app_assoc. cbn [app]. simpl in Hl, Hr. rewrite (Hl Kl), (Hr Kr).
    cbn [t_fold_lr_meta]. now rewrite f_g.
Qed.

Context (s0 : option name) (a0 : R).
(** The annotated subtree at a span. *)
Definition at_span (loc : atoms * atoms) (u : tree (tree_data E M * (option name * R))) : Prop :=
  exists t, u = annot f t (fst (go s0 a0 [] (fst loc))) (snd (go s0 a0 [] (fst loc))) /\
    at_ t = snd loc /\ tree_ok t /\ conventional t.
Lemma annot_spans (t : rtree) : tree_ok t -> conventional t -> forall ctx s a,
  (forall x, go s0 a0 [] (rev ctx ++ x) = go s a [] x) ->
  Forall2 at_span (locs ctx t) (inners (annot f t s a)).
Proof.
  induction t as [lv nm d l r Hl Hr] using tree_induction. intros O C ctx s a G.
  destruct (tree_ok_case _ O) as [(v & X & Hv)|(lv' & nm' & ml & mr & tl & tr & X & Lv & _ & _ & Kl & Kr)]; inv X.
  - constructor.
  - simpl in Hl, Hr. pose proof C as C0. simpl in C. destruct C as (Q1 & Q2 & Q3 & Q4).
    cbn [locs annot inners]. apply Forall2_app; [apply Hl; auto|]. constructor.
    + exists (Node lv' nm' (Branch ml mr) (Some tl) (Some tr)). cbn [fst snd].
      specialize (G []). rewrite app_nil_r in G. rewrite G. cbn [go fst snd]. auto.
    + apply Hr; auto. intros x. cbn [rev]. rewrite rev_app_distr, rev_involutive, <- !app_assoc, G. cbn [app].
      rewrite (go_tree tl Kl). now rewrite f_g.
Qed.

Lemma inners_changed {B} (eqB : forall x y : B, {x = y} + {x <> y}) (old t : tree B) : inner_named t ->
  changed eqB old t = length (filter (fun s => negb (existsb (tree_same eqB s) (subtrees old))) (inners t)).
Proof.
  change (changed eqB old t) with (news eqB old t).
  induction t as [lv nm d l r Hl Hr] using tree_induction. intros I.
  destruct (inner_named_case _ I) as [(lv' & d' & Q)|(lv' & n & d' & tl & tr & Q & Il & Ir)]; inv Q.
  - reflexivity.
  - simpl in Hl, Hr. rewrite news_eq. cbn [inners]. rewrite filter_app, app_length. cbn [filter].
    rewrite (Hl Il), (Hr Ir). unfold is_new. cbn [has_children andb].
    destruct (negb _); cbn [length]; lia.
Qed.

Theorem lr_changed_bound (old t : rtree) pre mid mid' post :
  tree_ok old -> conventional old -> tree_ok t -> conventional t -> inner_named t ->
  at_ old = pre ++ mid ++ post -> at_ t = pre ++ mid' ++ post ->
  changed (eqN eqD eqR) (annot f old s0 a0) (annot f t s0 a0) <=
    seen_from_right pre + length (marks mid') + length (marks post).
Proof.
  intros Oo Co Ot Ct I Eo Et. rewrite inners_changed by now apply annot_inner.
  set (P := fun z : atoms * atoms => In z (spans [] (at_ old) [])).
  assert (F : few P (seen_from_right pre + length (marks mid') + length (marks post)) (spans [] (at_ t) [])).
  { rewrite Et, !spans_app, <- Nat.add_assoc, !app_nil_r. apply few_app; [|apply few_app].
    - eapply few_impl; [|apply (few_before pre [] (mid ++ post))]. intros z Z. unfold P.
      rewrite Eo, spans_app, app_nil_r. apply in_or_app. left. exact Z.
    - apply few_inside.
    - apply few_inside. }
  rewrite (spans_whole t Ot Ct) in F.
  pose proof (annot_spans t Ot Ct [] s0 a0 (fun x => eq_refl)) as F2.
  refine (few_filter P _ _ _ _ _ F _ F2).
  intros z u (t1 & -> & E1 & O1 & C1) Pz. apply negb_false_iff, is_old. unfold P in Pz.
  rewrite (spans_whole old Oo Co) in Pz.
  pose proof (annot_spans old Oo Co [] s0 a0 (fun x => eq_refl)) as F3.
  destruct z as [b sp]. cbn [fst snd] in *.
  assert (Q : exists u, In u (inners (annot f old s0 a0)) /\ at_span (b, sp) u).
  { clear - F3 Pz. induction F3; [contradiction|]. destruct Pz as [->|Pz].
    - exists y. split; [left; reflexivity|exact H].
    - destruct (IHF3 Pz) as (u & Iu & Su). exists u. split; [right; exact Iu|exact Su]. }
  destruct Q as (u & Iu & t2 & -> & E2 & O2 & C2). cbn [fst snd] in *.
  assert (t2 = t1) as <- by (apply tree_unique; auto; congruence).
  apply inners_sub. exact Iu.
Qed.
End Raz.
